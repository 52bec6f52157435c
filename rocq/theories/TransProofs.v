(** * Buffered transfer: proofs *)
From Verif Require Import Prelude Rand DevModel DevSpec DevProofs PulseModel PulseSpec PulseProofs PulseProps CompModel CompSpec CompProofs CompProofs2 CompProofs3 CompProofs4 CompProps5 CompProps6 TransModel TransSpec.

Lemma truncZ_sign q : 0 <= IZR (truncZ q) * q.
Proof.
  unfold truncZ. rcase; intros.
  - pose proof (floorZ_spec q) as F. assert (-1 < IZR (floorZ q)) by lra. assert (G : (-1 < floorZ q)%Z) by now apply lt_IZR. assert (0 <= IZR (floorZ q)) by (apply IZR_le; lia). nra.
  - pose proof (floorZ_spec (- q)) as F. assert (-1 < IZR (floorZ (- q))) by lra. assert (G : (-1 < floorZ (- q))%Z) by now apply lt_IZR. assert (0 <= IZR (floorZ (- q))) by (apply IZR_le; lia). rewrite opp_IZR. nra.
Qed.
Lemma n_steps_spec maxs q : (0 <= maxs)%Z -> whole_steps maxs q (n_steps maxs q).
Proof.
  intros M. unfold whole_steps, n_steps. destruct (truncZ_spec q) as [T1 T2]. pose proof (truncZ_sign q) as T3. set (z := truncZ q) in *.
  assert (MR : 0 <= IZR maxs) by now apply IZR_le.
  destruct (Z.le_gt_cases (Z.abs z) maxs) as [H | H].
  - replace (Z.max (Z.min z maxs) (- maxs)) with z by lia. repeat split; auto. intros _. revert T1 T2 T3. unfold Rabs. repeat destruct (Rcase_abs _); nra.
  - destruct (Z.le_gt_cases 0 z) as [P | P].
    + replace (Z.max (Z.min z maxs) (- maxs)) with maxs by lia. assert (IZR maxs < IZR z) by (apply IZR_lt; lia). rewrite (Rabs_right (IZR maxs)) by lra. rewrite (Rabs_right (IZR z)) in T1 by lra.
      repeat split; [lia | lra | | lia]. assert (0 < IZR z) by lra. assert (0 <= q) by nra. nra.
    + replace (Z.max (Z.min z maxs) (- maxs)) with (- maxs)%Z by lia. assert (IZR z < - IZR maxs) by (rewrite <- opp_IZR; apply IZR_lt; lia). rewrite opp_IZR. rewrite Rabs_Ropp, (Rabs_right (IZR maxs)) by lra. rewrite (Rabs_left (IZR z)) in T1 by lra.
      repeat split; [lia | lra | | lia]. assert (q <= 0) by nra. nra.
Qed.
Lemma nth_zipi {A B} (f : nat * A -> B) l d e k : (k < length l)%nat -> nth k (map f (zipi l)) d = f (k, nth k l e).
Proof.
  intros L. destruct (nth_error (map f (zipi l)) k) as [b|] eqn:E.
  - rewrite (nth_error_nth _ _ _ E). rewrite nth_error_map, nth_error_zipi in E. destruct (nth_error l k) eqn:F; [|discriminate]. cbn in E. injection E as <-. now rewrite (nth_error_nth _ _ _ F).
  - apply nth_error_None in E. rewrite map_length, zipi_length in E. lia.
Qed.
Lemma dims_map_slice cols k f m : dims (map_slice cols k f m) = dims m.
Proof.
  unfold dims, map_slice. apply (nth_ext _ _ 0%nat 0%nat); [now rewrite !map_length, zipi_length|]. intros i Li. rewrite !map_length, zipi_length in Li. rewrite map_map.
  rewrite (nth_zipi _ m 0%nat []) by auto. cbn [fst snd]. rewrite map_length, zipi_length. rewrite (nth_indep _ 0%nat (length (@nil R))) by (now rewrite map_length). now rewrite (map_nth (@length R)).
Qed.
Lemma at_map_slice cols k f m i j : (i < length m)%nat -> (j < length (nth i m []))%nat ->
  at_ (map_slice cols k f m) i j = if ((if cols then j else i) =? k)%nat then f (if cols then i else j) (at_ m i j) else at_ m i j.
Proof. intros Li Lj. unfold at_, map_slice. rewrite (nth_zipi _ m [] []) by auto. cbn [fst snd]. rewrite (nth_zipi _ (nth i m []) 0 0) by auto. cbn [fst snd]. reflexivity. Qed.
Lemma dims_lengths {A} (B : list (list A)) n m i : dims B = repeat n m -> (i < m)%nat -> length B = m /\ length (nth i B []) = n.
Proof.
  intros D L. split; [apply (f_equal (@length nat)) in D; unfold dims in D; now rewrite map_length, repeat_length in D|]. rewrite <- dims_nth, D.
  rewrite (nth_error_nth (repeat n m) i 0%nat (x := n)); auto. now apply nth_error_repeat.
Qed.
Lemma rect_out n m t s : rect n m s -> out_size t s = if tp_columns t then m else n.
Proof.
  intros (M & D & _). unfold out_size. destruct (dims_lengths _ _ _ 0 D M) as [L1 L2]. destruct (tp_columns t); auto.
Qed.
Lemma read_plain_ideal t from n m s i a out : ideal_read (tp_read t) -> rect n m s -> (from < length (k_parts s))%nat ->
  yields (read_plain t from (unit_vec (in_size t s) i) s) out -> nth a out 0 = if (i <? in_size t s)%nat then (if tp_columns t then part_weight s from a i else part_weight s from i a) else nth a out 0.
Proof.
  intros IR Rc Lf Y. destruct (Nat.ltb_spec i (in_size t s)) as [Li | Li]; auto. unfold read_plain, read_slice in Y. cbv zeta in Y. rewrite IR in Y. cbn [bindM] in Y. apply yields_ret in Y. subst out.
  destruct (rect_vis n m s from Rc Lf) as [Rv Lv]. pose proof Rc as (Pm & _ & _). rewrite (rect_in n m t s Rc) in *. unfold part_weight. change (nth from (k_parts s) no_part) with (part_at s from).
  rewrite !nth_map_Ropp, Ropp_involutive. destruct (tp_columns t).
  - rewrite read_unit by exact Rv. reflexivity.
  - pose proof (transposed_rows (vis (snd (part_at s from)))) as Tr. rewrite Lv in Tr. rewrite (read_unit _ m) by exact Tr. rewrite (at_transposed _ n _ _ Rv) by (eapply Nat.lt_le_trans; [exact Pm | apply Nat.eq_le_incl; symmetry; exact Lv]). reflexivity.
Qed.
Lemma buf_next_accounted p maxs g omega : (0 <= maxs)%Z -> accounted p maxs g omega (buf_next p g omega (n_steps maxs (omega / g))) (n_steps maxs (omega / g)).
Proof.
  intros M. split; [now apply n_steps_spec|]. unfold buf_next. destruct (Z.eqb_spec (n_steps maxs (omega / g)) 0); split; intros; congruence.
Qed.
Definition bsame (s s' : bstate) (from : nat) : Prop :=
  same_rest (b_c s) (b_c s') /\ length (b_buf s') = length (b_buf s) /\ (forall q, q <> from -> nth q (b_buf s') [] = nth q (b_buf s) []).
Lemma write_slice_spec t u to lr v out s s' n m a b c : tp_up t = init_upar u -> sensible u -> 0 < lr -> rect n m s -> (to < length (k_parts s))%nat -> 0 < m_dwmin (fst (part_at s to)) ->
  yields (write_slice t to lr v out s) s' -> cell_at (d_cells (snd (part_at s to))) a b = Some c ->
  exists c', cell_at (d_cells (snd (part_at s' to))) a b = Some c' /\ fst (part_at s' to) = fst (part_at s to) /\
    let w := if tp_columns t then - (nth b v 0 * nth a out 0) else - (nth b out 0 * nth a v 0) in pulsed_towards u (fst (part_at s to)) lr w c c'.
Proof.
  intros U Hs L Rc Lt Hg Y E. unfold write_slice in Y. destruct (upd_part_at _ _ _ _ Y) as (_ & _ & Yt). specialize (Yt Lt). apply yields_bind in Yt as (dv & Yd & Ye). apply yields_ret in Ye. rewrite Ye. cbn [fst snd]. rewrite U in Yd.
  assert (W : forall x d, yields (update_vector (init_upar u) (fst (part_at s to)) lr x d (snd (part_at s to))) dv -> exists c', cell_at (d_cells dv) a b = Some c' /\ pulsed_towards u (fst (part_at s to)) lr (- (nth b x 0 * nth a d 0)) c c').
  { intros x d Yx. destruct (uv_cell u _ lr x d _ _ a b c Hs Hg ltac:(lra) (or_intror L) Yx E) as (k & c' & E' & Yp & Z & Nk). exists c'. split; [exact E'|]. exists k. split; [|split; [exact Nk|]].
    - replace (Rltb (lr * - (nth b x 0 * nth a d 0)) 0) with (Rltb 0 (lr * nth b x 0 * nth a d 0)); [exact Yp|].
      destruct (Rltb (lr * - (nth b x 0 * nth a d 0)) 0) eqn:F; [apply Rltb_true in F; apply Rltb_true; lra | apply Rltb_false in F; apply Rltb_false; lra].
    - intros Hz. apply Z. assert (nth b x 0 * nth a d 0 = 0) by lra. rewrite Rmult_assoc. rewrite H. lra. }
  destruct (tp_columns t); destruct (W _ _ Yd) as (c' & E' & H); exists c'; auto.
Qed.
Lemma buf_move_rest t p to from lr s i s' : yields (buf_move t p to from lr s i) s' -> bsame s s' from /\ (forall k, k <> to -> part_at (b_c s') k = part_at (b_c s) k).
Proof.
  unfold buf_move. cbv zeta. intros Y. apply yields_bind in Y as (out & _ & Y). apply yields_bind in Y as (c1 & Y & E). apply yields_ret in E. subst s'. unfold bsame. cbn [b_c b_buf].
  assert (H : same_rest (b_c s) c1 /\ (forall k, k <> to -> part_at c1 k = part_at (b_c s) k)).
  { destruct (existsb _ _); [|apply yields_ret in Y; subst; split; [apply same_refl | auto]]. destruct (upd_part_at _ _ _ _ Y) as (A & B & _). auto. }
  destruct H as [A B]. split; [split; [exact A | split; [apply set_nth_length|]] | exact B]. intros q Nq. rewrite set_nth_nth. apply Nat.eqb_neq in Nq. now rewrite Nq.
Qed.
Lemma rect_same n m s s' : rect n m s -> same_rest s s' -> Forall (pdims (repeat n m)) (k_parts s') -> rect n m s'.
Proof. intros (P & D & _) (_ & W & _) F. split; [exact P|]. split; [now rewrite W | exact F]. Qed.
Lemma write_slice_pdims ds t to lr v out s s' : Forall (pdims ds) (k_parts s) -> yields (write_slice t to lr v out s) s' -> Forall (pdims ds) (k_parts s').
Proof.
  intros F Y. unfold write_slice in Y. destruct (upd_part_at _ _ _ _ Y) as ((_ & _ & _ & _ & _ & L) & O & P). apply Forall_forall. intros q Iq. apply (In_nth _ _ no_part) in Iq as (k & Lk & <-). change (nth k (k_parts s') no_part) with (part_at s' k).
  rewrite L in Lk. rewrite Forall_forall in F. specialize (F (part_at s k) (nth_In _ _ Lk)). destruct (Nat.eq_dec k to) as [-> | Nk]; [|now rewrite O].
  specialize (P Lk). apply yields_bind in P as (dv & Yd & Ye). apply yields_ret in Ye. rewrite Ye. unfold pdims in *. cbn [snd]. rewrite <- F. destruct (tp_columns t); eapply update_vector_dims; eauto.
Qed.
Definition bentry (t : tpar) (p : bpar) (u : upar) (to from : nat) (lr : R) (s : bstate) (hit : bool) (a b : nat) (c : cell) (x : R) (c' : cell) : Prop :=
  let mt := fst (part_at (b_c s) to) in
  if hit then exists k, accounted p (up_BL u) (bp_thres p * m_dwmin mt) (buf_at s from a b + Rabs lr * part_weight (b_c s) from a b) x k /\ pulsed_towards u mt (bp_step p * m_dwmin mt) (IZR k) c c'
  else x = buf_at s from a b /\ c' = c.
Lemma buf_move_cell t u p to from lr n m s i s' a b c : ideal_read (tp_read t) -> tp_up t = init_upar u -> sensible u -> 0 < bp_step p -> to <> from ->
  rect n m (b_c s) -> (to < length (k_parts (b_c s)))%nat -> (from < length (k_parts (b_c s)))%nat -> (from < length (b_buf s))%nat -> dims (nth from (b_buf s) []) = repeat n m ->
  0 < m_dwmin (fst (part_at (b_c s) to)) -> (i < in_size t (b_c s))%nat ->
  yields (buf_move t p to from lr s i) s' -> cell_at (d_cells (snd (part_at (b_c s) to))) a b = Some c ->
  rect n m (b_c s') /\ dims (nth from (b_buf s') []) = repeat n m /\ fst (part_at (b_c s') to) = fst (part_at (b_c s) to) /\
  exists c', cell_at (d_cells (snd (part_at (b_c s') to))) a b = Some c' /\ bentry t p u to from lr s (slice_of t a b =? i)%nat a b c (buf_at s' from a b) c'.
Proof.
  intros IR U Hs St Ne Rc Lt Lf Lb Db Hg Li Y E. pose proof (buf_move_rest _ _ _ _ _ _ _ _ Y) as [(Sr & _ & _) _].
  assert (Hab : (a < m)%nat /\ (b < n)%nat). { pose proof Rc as (_ & _ & F). rewrite Forall_forall in F. specialize (F (part_at (b_c s) to) (nth_In _ _ Lt)). exact (repeat_dims_cells n m _ a b c F E). } destruct Hab as [La Lbn].
  unfold buf_move in Y. cbv zeta in Y. apply yields_bind in Y as (out & Yo & Y). change (nth to (k_parts (b_c s)) no_part) with (part_at (b_c s) to) in Y. set (wg := m_dwmin (fst (part_at (b_c s) to))) in *. set (g := bp_thres p * wg) in *.
  set (B := nth from (b_buf s) []) in *. set (om := fun j => (if tp_columns t then at_ B j i else at_ B i j) + nth j out 0 * Rabs lr) in *. set (ks := fun j => n_steps (up_BL (tp_up t)) (om j / g)).
  apply yields_bind in Y as (c1 & Y & Es). apply yields_ret in Es.
  assert (Bl : up_BL (tp_up t) = up_BL u) by (rewrite U; reflexivity). assert (P1 : (0 <= up_BL u)%Z) by (destruct Hs; lia).
  assert (Eb : b_buf s' = set_nth from (map_slice (tp_columns t) i (fun j _ => buf_next p g (om j) (ks j)) B) (b_buf s)) by (rewrite Es; reflexivity). assert (Ec : b_c s' = c1) by (rewrite Es; reflexivity).
  assert (En : nth from (b_buf s') [] = map_slice (tp_columns t) i (fun j _ => buf_next p g (om j) (ks j)) B). { rewrite Eb, set_nth_nth, Nat.eqb_refl, (proj2 (Nat.ltb_lt _ _) Lb). reflexivity. }
  assert (Wr : forall j, nth j out 0 = if tp_columns t then part_weight (b_c s) from j i else part_weight (b_c s) from i j). { intros j. pose proof (read_plain_ideal t from n m (b_c s) i j out IR Rc Lf Yo) as H. now rewrite (proj2 (Nat.ltb_lt _ _) Li) in H. }
  set (oj := if tp_columns t then a else b). 
  assert (Hom : (slice_of t a b =? i)%nat = true -> om oj = buf_at s from a b + Rabs lr * part_weight (b_c s) from a b).
  { intros H. apply Nat.eqb_eq in H. unfold om, oj, buf_at. fold B. rewrite Wr. unfold slice_of in H. destruct (tp_columns t); subst i; lra. }
  destruct (dims_lengths B n m a Db La) as [LB LBa].
  assert (Hx : buf_at s' from a b = if (slice_of t a b =? i)%nat then buf_next p g (om oj) (ks oj) else buf_at s from a b). { unfold buf_at. rewrite En, at_map_slice by lia. reflexivity. }
  assert (Oj : (oj < out_size t (b_c s))%nat) by (rewrite (rect_out n m) by exact Rc; unfold oj; destruct (tp_columns t); auto).
  assert (Fd : Forall (pdims (repeat n m)) (k_parts (b_c s'))). { rewrite Ec. pose proof Rc as (_ & _ & F). destruct (existsb _ _); [eapply write_slice_pdims; eauto | apply yields_ret in Y; now subst]. }
  split; [exact (rect_same _ _ _ _ Rc Sr Fd)|]. split; [rewrite En, dims_map_slice; exact Db|].
  assert (Hw : fst (part_at (b_c s') to) = fst (part_at (b_c s) to) /\ exists c', cell_at (d_cells (snd (part_at (b_c s') to))) a b = Some c' /\ if (slice_of t a b =? i)%nat then pulsed_towards u (fst (part_at (b_c s) to)) (bp_step p * wg) (IZR (ks oj)) c c' else c' = c).
  { rewrite Ec. destruct (existsb _ _) eqn:Ex.
    - assert (Pl : 0 < bp_step p * wg) by (apply Rmult_lt_0_compat; auto). destruct (write_slice_spec t u to _ _ _ _ _ n m a b c U Hs Pl Rc Lt Hg Y E) as (c' & E' & M' & H). split; [exact M'|]. exists c'. split; [exact E'|].
      cbv zeta in H. match type of H with pulsed_towards _ _ _ ?w _ _ => replace w with (if (slice_of t a b =? i)%nat then IZR (ks oj) else 0) in H end.
      + destruct (slice_of t a b =? i)%nat; [exact H|]. destruct H as (k & _ & _ & Z). now apply Z.
      + assert (No : nth oj (map (fun z => - IZR z) (map (fun j => n_steps (up_BL (tp_up t)) (om j / g)) (seq 0 (out_size t (b_c s))))) 0 = - IZR (ks oj)).
        { rewrite map_map. rewrite (nth_indep _ 0 ((fun j => - IZR (n_steps (up_BL (tp_up t)) (om j / g))) 0%nat)) by (rewrite map_length, seq_length; exact Oj). rewrite (map_nth (fun j => - IZR (n_steps (up_BL (tp_up t)) (om j / g)))), seq_nth by exact Oj. reflexivity. }
        unfold slice_of, oj in *. destruct (tp_columns t).
        * rewrite unit_nth, (proj2 (Nat.ltb_lt _ _) Li), Bool.andb_true_r. unfold om, g, B in No |- *. rewrite No. destruct (b =? i)%nat; lra.
        * rewrite unit_nth, (proj2 (Nat.ltb_lt _ _) Li), Bool.andb_true_r. unfold om, g, B in No |- *. rewrite No. destruct (a =? i)%nat; lra.
    - apply yields_ret in Y. subst c1. split; [reflexivity|]. exists c. split; [exact E|]. destruct (slice_of t a b =? i)%nat eqn:Eh; auto.
      assert (K0 : ks oj = 0%Z).
      { destruct (Z.eq_dec (ks oj) 0) as [Z0|Nz]; auto. exfalso. assert (Et : existsb (fun z => negb (z =? 0)%Z) (map (fun j => n_steps (up_BL (tp_up t)) (om j / g)) (seq 0 (out_size t (b_c s)))) = true).
        { apply existsb_exists. exists (ks oj). split; [apply in_map_iff; exists oj; split; [reflexivity | apply in_seq; lia] | apply Bool.negb_true_iff; now apply Z.eqb_neq]. } discriminate (eq_trans (eq_sym Ex) Et). }
      rewrite K0. exists 0%nat. split; [apply yields_ret; reflexivity|]. split; [|auto]. unfold slots. destruct (_ || _)%bool; lia. }
  destruct Hw as (M' & c' & E' & H). split; [exact M'|]. exists c'. split; [exact E'|]. unfold bentry. cbv zeta. fold wg. rewrite Hx. destruct (slice_of t a b =? i)%nat eqn:Eh; [|auto].
  exists (ks oj). split; [|exact H]. fold g. rewrite <- (Hom eq_refl). unfold ks. rewrite Bl. now apply buf_next_accounted.
Qed.
Lemma bsame_refl s from : bsame s s from.
Proof. split; [apply same_refl | auto]. Qed.
Lemma bsame_trans a b c from : bsame a b from -> bsame b c from -> bsame a c from.
Proof. intros (A1 & A2 & A3) (B1 & B2 & B3). split; [eapply same_trans; eauto|]. split; [congruence|]. intros q Nq. rewrite B3, A3; auto. Qed.
Lemma buf_moves_rest t p to from lr : forall js s s', yields (foldMM (buf_move t p to from lr) js s) s' -> bsame s s' from /\ (forall k, k <> to -> part_at (b_c s') k = part_at (b_c s) k).
Proof.
  induction js as [|j js IH]; intros s s' Y; cbn [foldMM] in Y; [apply yields_ret in Y; subst; split; [apply bsame_refl | auto]|].
  apply yields_bind in Y as (s1 & Y1 & Y). destruct (buf_move_rest _ _ _ _ _ _ _ _ Y1) as [S1 O1]. destruct (IH _ _ Y) as [S2 O2]. split; [eapply bsame_trans; eauto|]. intros. rewrite O2, O1; auto.
Qed.
Lemma buf_moves_cell t u p to from lr n m : ideal_read (tp_read t) -> tp_up t = init_upar u -> sensible u -> 0 < bp_step p -> to <> from ->
  forall js s s' a b c, NoDup js -> (forall i, List.In i js -> (i < in_size t (b_c s))%nat) ->
  rect n m (b_c s) -> (to < length (k_parts (b_c s)))%nat -> (from < length (k_parts (b_c s)))%nat -> (from < length (b_buf s))%nat -> dims (nth from (b_buf s) []) = repeat n m ->
  0 < m_dwmin (fst (part_at (b_c s) to)) -> yields (foldMM (buf_move t p to from lr) js s) s' -> cell_at (d_cells (snd (part_at (b_c s) to))) a b = Some c ->
  rect n m (b_c s') /\ dims (nth from (b_buf s') []) = repeat n m /\ fst (part_at (b_c s') to) = fst (part_at (b_c s) to) /\
  exists c', cell_at (d_cells (snd (part_at (b_c s') to))) a b = Some c' /\ bentry t p u to from lr s (existsb (Nat.eqb (slice_of t a b)) js) a b c (buf_at s' from a b) c'.
Proof.
  intros IR U Hs St Ne. induction js as [|j js IH]; intros s s' a b c ND Lj Rc Lt Lf Lb Db Hg Y E; cbn [foldMM] in Y.
  { apply yields_ret in Y. subst s'. split; [exact Rc|]. split; [exact Db|]. split; [reflexivity|]. exists c. split; [exact E|]. split; reflexivity. }
  apply yields_bind in Y as (s1 & Y1 & Y). destruct (buf_move_cell t u p to from lr n m s j s1 a b c IR U Hs St Ne Rc Lt Lf Lb Db Hg (Lj j (or_introl eq_refl)) Y1 E) as (R1 & D1 & M1 & c1 & E1 & H1).
  destruct (buf_move_rest _ _ _ _ _ _ _ _ Y1) as [((_ & W1 & _ & _ & _ & Lp) & Lq & Oq) O1]. inversion ND as [|? ? Nj ND']; subst.
  assert (Is : in_size t (b_c s1) = in_size t (b_c s)) by (apply in_size_w; now rewrite W1).
  assert (A1 : forall i, List.In i js -> (i < in_size t (b_c s1))%nat) by (intros i Ii; rewrite Is; apply Lj; simpl; auto).
  assert (A2 : (to < length (k_parts (b_c s1)))%nat) by (rewrite Lp; exact Lt). assert (A3 : (from < length (k_parts (b_c s1)))%nat) by (rewrite Lp; exact Lf). assert (A4 : (from < length (b_buf s1))%nat) by (rewrite Lq; exact Lb).
  assert (A5 : 0 < m_dwmin (fst (part_at (b_c s1) to))) by (rewrite M1; exact Hg).
  destruct (IH s1 s' a b c1 ND' A1 R1 A2 A3 A4 D1 A5 Y E1) as (R2 & D2 & M2 & c2 & E2 & H2).
  split; [exact R2|]. split; [exact D2|]. split; [congruence|]. exists c2. split; [exact E2|]. cbn [existsb]. unfold bentry in *. cbv zeta in *. rewrite M1 in H2.
  assert (Pw : part_weight (b_c s1) from a b = part_weight (b_c s) from a b). { unfold part_weight. change (nth from (k_parts (b_c s1)) no_part) with (part_at (b_c s1) from). rewrite O1 by auto. reflexivity. } rewrite Pw in H2.
  destruct (Nat.eqb_spec (slice_of t a b) j) as [Ej | Ej]; cbn [orb].
  - assert (Ex : existsb (Nat.eqb (slice_of t a b)) js = false). { apply Bool.not_true_is_false. intros Ex. apply existsb_exists in Ex as (z & Iz & Ez). apply Nat.eqb_eq in Ez. rewrite Ej in Ez. now subst. }
    rewrite Ex in H2. destruct H2 as [X2 C2]. rewrite X2, C2. exact H1.
  - destruct H1 as [X1 C1]. rewrite X1, C1 in H2. exact H2.
Qed.
Lemma seq_split_mem start n ins k : (start < ins)%nat -> (n <= ins)%nat -> (k < ins)%nat ->
  selected start n ins k <-> List.In k (if (ins - start <? n)%nat then seq start (ins - start) ++ seq 0 (n - (ins - start)) else seq start n).
Proof.
  intros Hs Hn Hk. rewrite selected_split by auto. destruct (Nat.ltb_spec (ins - start) n); [rewrite in_app_iff, !in_seq; lia | rewrite in_seq; lia].
Qed.
Lemma foldMM_app {A B} (f : B -> A -> M B) : forall l l' b z, yields (a <~ foldMM f l b ;; foldMM f l' a) z -> yields (foldMM f (l ++ l') b) z.
Proof.
  induction l as [|a l IH]; intros l' b z Y; cbn [app foldMM] in *; [exact Y|]. apply yields_bind in Y as (w & Y1 & Y). apply yields_bind in Y1 as (v & Y0 & Y1). apply yields_bind. exists v. split; auto. apply IH. apply yields_bind. eauto.
Qed.
Lemma buf_transfer_moves t p to from cur s s' : let lr := buf_lr t (b_c s) to from cur in let ins := in_size t (b_c s) in let start := nth from (k_slices (b_c s)) 0%nat in let nr := n_reads t (b_c s) in
  lr <> 0 -> to <> from -> (S from < length (k_parts (b_c s)))%nat -> tp_random t = false -> yields (buf_transfer t p to from cur s) s' ->
  exists s1, yields (foldMM (buf_move t p to from lr) (if (ins - start <? nr)%nat then seq start (ins - start) ++ seq 0 (nr - (ins - start)) else seq start nr) s) s1 /\
    s' = with_c s1 (with_slices (b_c s1) (set_nth from ((start + nr) mod ins)%nat (k_slices (b_c s1)))).
Proof.
  intros lr ins start nr L Ne Lf Rn Y. unfold buf_transfer, transfer_g in Y. cbv zeta in Y. rewrite Rn in Y. cbn [bindM] in Y. fold ins lr start in Y. change (Nat.min (tp_reads t) ins) with nr in Y.
  apply yields_bind in Y as (s1 & Y & E). apply yields_ret in E. exists s1. split; [|exact E].
  assert (Br : forall i0 n z z', (S from < length (k_parts (b_c z)))%nat -> yields (buf_read t p to from lr i0 n z) z' -> yields (foldMM (buf_move t p to from lr) (seq i0 n) z) z').
  { intros i0 n z z' Lz Yz. unfold buf_read in Yz. rewrite (proj2 (Reqb_false lr 0) L), (proj2 (Nat.eqb_neq to from) Ne) in Yz. cbn [orb] in Yz. replace (length (k_parts (b_c z)) - 1 <=? from)%nat with false in Yz by (symmetry; apply Nat.leb_gt; lia). destruct (_ && _)%bool; [now apply yields_throw in Yz | exact Yz]. }
  destruct (ins - start <? nr)%nat.
  - apply yields_bind in Y as (a & Y1 & Y). apply Br in Y1; [|exact Lf]. apply Br in Y; [|destruct (buf_moves_rest _ _ _ _ _ _ _ _ Y1) as [((_ & _ & _ & _ & _ & Lp) & _) _]; lia]. apply foldMM_app. apply yields_bind. eauto.
  - now apply Br in Y.
Qed.
