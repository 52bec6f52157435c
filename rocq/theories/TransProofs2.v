(** * Buffered transfer: invariants of histories *)
From Verif Require Import Prelude Rand DevModel DevSpec DevProofs PulseModel PulseSpec PulseProofs PulseProps CompModel CompSpec CompProofs CompProofs2 CompProofs3 CompProofs4 CompProps CompProps5 CompProps6 TransModel TransSpec TransProofs TransProps.

Definition metas (c : comp) : list meta := map fst (k_parts c).
Lemma metas_ext (c c' : comp) : length (k_parts c') = length (k_parts c) -> (forall k, (k < length (k_parts c))%nat -> fst (part_at c' k) = fst (part_at c k)) -> metas c' = metas c.
Proof.
  intros L H. unfold metas. apply (nth_ext _ _ (fst no_part) (fst no_part)); [now rewrite !map_length|]. intros k Lk. rewrite map_length in Lk. rewrite !(map_nth fst). apply H. eapply Nat.lt_le_trans; [exact Lk | apply Nat.eq_le_incl; exact L].
Qed.
Lemma part_op_meta o p p' : yields (part_op o p) p' -> fst p' = fst p.
Proof. unfold part_op. intros Y. apply yields_bind in Y as (d & _ & Y). apply yields_ret in Y. now subst. Qed.
Lemma upd_part_metas k f s s' : (forall p p', yields (f p) p' -> fst p' = fst p) -> yields (upd_part k f s) s' -> metas s' = metas s.
Proof.
  intros F Y. destruct (upd_part_at _ _ _ _ Y) as ((_ & _ & _ & _ & _ & L) & O & P). apply metas_ext; [exact L|]. intros q Lq. destruct (Nat.eq_dec q k) as [-> | N]; [apply F, P, Lq | now rewrite O].
Qed.
Lemma mapMM_metas (f : nat * part -> M part) (ps qs : list part) : (forall kp p', yields (f kp) p' -> fst p' = fst (snd kp)) -> yields (mapMM f (zipi ps)) qs -> map fst qs = map fst ps.
Proof.
  intros F Y. pose proof (mapMM_length _ _ _ Y) as L. rewrite zipi_length in L. apply (nth_ext _ _ (fst no_part) (fst no_part)); [rewrite !map_length; exact L|]. intros k Lk. rewrite map_length in Lk. rewrite !(map_nth fst).
  assert (Lk2 : (k < length ps)%nat) by (eapply Nat.lt_le_trans; [exact Lk | apply Nat.eq_le_incl; exact L]). pose proof (mapMM_zipi_nth _ _ _ k Y Lk2) as Yk. apply F in Yk. exact Yk.
Qed.
Lemma all_parts_metas o s s' : yields (all_parts o s) s' -> metas s' = metas s /\ k_gam s' = k_gam s.
Proof.
  unfold all_parts. intros Y. apply yields_bind in Y as (ps & Y & E). apply yields_ret in E. subst s'. split; [|reflexivity]. unfold metas. cbn [k_parts with_parts]. apply yields_mapMM in Y. induction Y as [|a b l r H F IH]; [reflexivity|]. cbn [map]. f_equal; [now apply part_op_meta in H | exact IH].
Qed.
Lemma show_metas kd s : metas (show kd s) = metas s /\ k_gam (show kd s) = k_gam s.
Proof. unfold show. destruct (hidden kd); split; reflexivity. Qed.
Lemma transfer_call_metas s c s' : yields (transfer_call s c) s' -> metas s' = metas s /\ k_gam s' = k_gam s.
Proof.
  intros Y. assert (Y1 : yields (send SingleFixed (with_idx s 0 (k_cnt s)) (call_pulses c)) s') by (destruct c; exact Y). unfold send in Y1. apply yields_bind in Y1 as (ps & Y2 & E). apply yields_ret in E. subst s'. split; [|reflexivity].
  unfold metas. cbn [k_parts with_parts]. cbn [k_parts with_idx] in Y2. apply mapMM_metas in Y2; [exact Y2|]. intros kp p' Yp. destruct (active _ _ _); [now apply part_op_meta in Yp | apply yields_ret in Yp; now subst].
Qed.
Lemma transfer_calls_metas : forall cs s s', yields (foldMM transfer_call cs s) s' -> metas s' = metas s /\ k_gam s' = k_gam s.
Proof.
  induction cs as [|c cs IH]; intros s s' Y; cbn [foldMM] in Y; [apply yields_ret in Y; now subst|]. apply yields_bind in Y as (s1 & Y1 & Y). apply transfer_call_metas in Y1 as [A B]. apply IH in Y as [C D]. split; congruence.
Qed.
Lemma cdo_metas t o s s' : match o with CUpdate _ _ _ => False | _ => True end -> yields (cdo (KTransfer t) s o) s' -> metas s' = metas s /\ k_gam s' = k_gam s.
Proof.
  intros No Y. destruct o; try contradiction; cbn [cdo] in Y.
  1-4: apply yields_bind in Y as (s1 & Y & E); apply yields_ret in E; subst s'; destruct (show_metas (KTransfer t) s1) as [-> ->]; now apply all_parts_metas in Y.
  - unfold reset_cols in Y. apply yields_bind in Y as (s1 & Y & E). apply yields_ret in E. subst s'. destruct (show_metas (KTransfer t) s1) as [-> ->]. split; [eapply upd_part_metas; [|exact Y]; intros; eapply part_op_meta; eauto | destruct (upd_part_at _ _ _ _ Y) as ((G & _) & _); exact G].
  - cbn [set_weights] in Y. cbv zeta in Y. destruct (tp_hidden t); [|destruct (Reqb _ _); [now apply yields_throw in Y|]]; apply yields_bind in Y as (ps & Y & E); apply yields_ret in E; subst s';
      match goal with |- metas (show ?k ?z) = _ /\ _ => destruct (show_metas k z) as [-> ->] end; (split; [|reflexivity]); unfold metas; cbn [k_parts with_parts]; (apply mapMM_metas in Y; [exact Y|]); intros kp p' Yp.
    + destruct (_ =? _)%nat; [now apply part_op_meta in Yp | apply yields_ret in Yp; now subst].
    + now apply part_op_meta in Yp.
  - cbv zeta in Y. apply yields_bind in Y as (s1 & Y & E). apply yields_ret in E. subst s'. destruct (show_metas (KTransfer t) s1) as [-> ->]. apply all_parts_metas in Y as [A B]. rewrite A, B. destruct (hidden (KTransfer t)); [|split; reflexivity]. split; [|reflexivity].
    unfold metas. cbn [k_parts with_parts]. rewrite map_map. apply (nth_ext _ _ (fst no_part) (fst no_part)); [now rewrite !map_length, zipi_length|]. intros k Lk. rewrite map_length, zipi_length in Lk. rewrite (nth_zipi _ (k_parts s) (fst no_part) no_part) by exact Lk. cbn [fst snd]. rewrite (map_nth fst). destruct (_ =? _)%nat; reflexivity.
Qed.
Lemma write_slice_metas t to lr v out s s' : yields (write_slice t to lr v out s) s' -> metas s' = metas s /\ k_gam s' = k_gam s.
Proof.
  intros Y. unfold write_slice in Y. split; [eapply upd_part_metas; [|exact Y] | destruct (upd_part_at _ _ _ _ Y) as ((G & _) & _); exact G]. intros p p' Yp. apply yields_bind in Yp as (d & _ & E). apply yields_ret in E. now subst.
Qed.
Lemma metas_nth c k : m_dwmin (nth k (metas c) (fst no_part)) = m_dwmin (fst (part_at c k)).
Proof. unfold metas. now rewrite (map_nth fst). Qed.
Lemma metas_len c : length (metas c) = length (k_parts c).
Proof. apply map_length. Qed.

(** ** An invariant of the entries of the buffers *)
Section Inv.
Variables (t : tpar) (p : bpar) (ms : list meta) (gam : vec) (P : nat -> R -> Prop) (D : nat -> R -> Prop).
Definition gran (from : nat) : R := bp_thres p * m_dwmin (nth (S from) ms (fst no_part)).
Hypothesis P0 : forall from, P from 0.
Hypothesis Pstep : forall from old dlt, (S from < length ms)%nat -> P from old -> D from dlt ->
  P from (buf_next p (gran from) (old + dlt) (n_steps (up_BL (tp_up t)) ((old + dlt) / gran from))).
Definition keeps (s : bstate) : Prop := metas (b_c s) = ms /\ k_gam (b_c s) = gam /\ forall from a b, P from (buf_at s from a b).
(** reads of crossbar [from] with learning rate [lr] *)
Definition limited (from : nat) (lr : R) : Prop := forall w x out j, yields (tp_read t w x) out -> D from (nth j out 0 * Rabs lr).
Lemma at_map_slice_gen cols k f m i j : exists b : bool, at_ (map_slice cols k f m) i j = 0 \/ at_ (map_slice cols k f m) i j = if b then f (if cols then i else j) (at_ m i j) else at_ m i j.
Proof.
  destruct (Nat.lt_ge_cases i (length m)) as [Li | Li].
  - destruct (Nat.lt_ge_cases j (length (nth i m []))) as [Lj | Lj].
    + exists ((if cols then j else i) =? k)%nat. right. now apply at_map_slice.
    + exists true. left. unfold at_. apply nth_overflow. pose proof (dims_map_slice cols k f m) as Dm. apply (f_equal (fun l => nth i l 0%nat)) in Dm. rewrite !dims_nth in Dm. eapply Nat.le_trans; [apply Nat.eq_le_incl; exact Dm | exact Lj].
  - exists true. left. unfold at_. rewrite (nth_overflow (map_slice _ _ _ _)); [now destruct j|]. pose proof (dims_map_slice cols k f m) as Dm. apply (f_equal (@length nat)) in Dm. unfold dims in Dm. rewrite !map_length in Dm. lia.
Qed.
Lemma buf_move_keeps from lr s i s' : (S from < length ms)%nat -> limited from lr -> keeps s -> yields (buf_move t p (S from) from lr s i) s' -> keeps s'.
Proof.
  intros Lf Lm (Km & Kg & Kp) Y. destruct (buf_move_rest _ _ _ _ _ _ _ _ Y) as [(Sr & Lb & Oq) _]. unfold buf_move in Y. cbv zeta in Y. apply yields_bind in Y as (out & Yo & Y). apply yields_bind in Y as (c1 & Y & Es). apply yields_ret in Es.
  assert (Hc : metas c1 = metas (b_c s) /\ k_gam c1 = k_gam (b_c s)) by (destruct (existsb _ _); [eapply write_slice_metas; eauto | apply yields_ret in Y; now subst]). destruct Hc as [Hm Hg].
  split; [subst s'; cbn [b_c]; congruence|]. split; [subst s'; cbn [b_c]; congruence|]. intros q a b. destruct (Nat.eq_dec q from) as [-> | Nq]; [|unfold buf_at; rewrite Oq by auto; apply Kp].
  assert (Eg : bp_thres p * m_dwmin (fst (nth (S from) (k_parts (b_c s)) no_part)) = gran from) by (unfold gran; rewrite <- Km, metas_nth; reflexivity). rewrite Eg in Es.
  assert (Hd : forall j, D from (nth j out 0 * Rabs lr)).
  { intros j. unfold read_plain, read_slice in Yo. cbv zeta in Yo. apply yields_bind in Yo as (o2 & Yo & E2). apply yields_ret in E2. apply yields_bind in Yo as (o3 & Yo & E3). apply yields_ret in E3. subst o2 out. rewrite !nth_map_Ropp, Ropp_involutive. eapply Lm; exact Yo. }
  unfold buf_at. rewrite Es. cbn [b_buf]. rewrite set_nth_nth, Nat.eqb_refl. cbn [andb]. destruct (Nat.ltb_spec from (length (b_buf s))) as [Lq | Lq]; [|apply Kp].
  match goal with |- P from (at_ (map_slice ?cl ?k ?f ?m) a b) => destruct (at_map_slice_gen cl k f m a b) as (h & [-> | E]) end; [apply P0|]. destruct h; [|rewrite E; apply Kp]. rewrite E. cbv beta. apply Pstep; auto.
  destruct (tp_columns t); apply Kp.
Qed.
Lemma buf_read_keeps to from lr i0 n s s' : to = Nat.min (S from) (length ms - 1) -> limited from lr -> keeps s -> yields (buf_read t p to from lr i0 n s) s' -> keeps s'.
Proof.
  intros Et Lm K Y. unfold buf_read in Y. destruct (_ || _)%bool eqn:E; [apply yields_ret in Y; now subst|]. destruct (_ && _)%bool; [now apply yields_throw in Y|].
  assert (L : length (k_parts (b_c s)) = length ms) by (destruct K as [<- _]; symmetry; apply metas_len). apply Bool.orb_false_iff in E as [_ E]. apply Nat.leb_gt in E. assert (to = S from) by lia. clear Et. subst to.
  refine (yields_foldMM_inv _ keeps _ _ _ _ K Y). intros b i b' _ Kb Yb. apply (buf_move_keeps from lr b i b'); [lia | exact Lm | exact Kb | exact Yb].
Qed.
Lemma buf_transfer_keeps to from cur s s' : to = Nat.min (S from) (length ms - 1) -> (forall c, k_gam c = gam -> limited from (buf_lr t c to from cur)) -> keeps s -> yields (buf_transfer t p to from cur s) s' -> keeps s'.
Proof.
  intros Et Lm K Y. assert (Lk : limited from (buf_lr t (b_c s) to from cur)) by (apply Lm; destruct K as (_ & H & _); exact H). unfold buf_transfer, transfer_g in Y. cbv zeta in Y. apply yields_bind in Y as (i0 & _ & Y). apply yields_bind in Y as (s1 & Y & E). apply yields_ret in E.
  assert (K1 : keeps s1).
  { destruct (_ <? _)%nat.
    - apply yields_bind in Y as (a & Y1 & Y). eapply buf_read_keeps; [exact Et | exact Lk | | exact Y]. eapply buf_read_keeps; [exact Et | exact Lk | exact K | exact Y1].
    - eapply buf_read_keeps; [exact Et | exact Lk | exact K | exact Y]. }
  subst s'. exact K1.
Qed.
Definition op_limited (o : cop) : Prop := match o with CUpdate _ cur _ => forall from c, (S from < length ms)%nat -> k_gam c = gam -> limited from (buf_lr t c (S from) from cur) | _ => True end.
Lemma buf_do_keeps o s s' : op_limited o -> keeps s -> yields (buf_do t p s o) s' -> keeps s'.
Proof.
  intros Ol K Y.
  assert (Oth : forall o', match o' with CUpdate _ _ _ => False | _ => True end -> yields (c1 <~ cdo (KTransfer t) (b_c s) o' ;; Ret (with_c s c1)) s' -> keeps s').
  { intros o' No Yo. apply yields_bind in Yo as (c1 & Yo & E). apply yields_ret in E. subst s'. apply cdo_metas in Yo as [A B]; [|exact No]. destruct K as (K1 & K2 & K3). split; [cbn [b_c with_c]; congruence|]. split; [cbn [b_c with_c]; congruence|]. exact K3. }
  destruct o; try (eapply Oth; [|exact Y]; exact Logic.I). cbn [buf_do] in Y. apply yields_bind in Y as (c1 & Y1 & Y). apply transfer_calls_metas in Y1 as [A1 B1].
  assert (K1 : keeps (with_c s c1)) by (destruct K as (K1 & K2 & K3); split; [cbn [b_c with_c]; congruence|]; split; [cbn [b_c with_c]; congruence|]; exact K3).
  unfold buf_finish in Y. apply yields_bind in Y as (s2 & Y & E). apply yields_ret in E. subst s'.
  assert (K2 : keeps s2).
  { unfold transfers_g in Y. cbv zeta in Y. assert (Ln : length (k_parts (b_c (with_c s c1))) = length ms) by (destruct K1 as [<- _]; symmetry; apply metas_len). rewrite Ln in Y.
    assert (K1' : keeps (with_c (with_c s c1) (with_idx (b_c (with_c s c1)) 0 (S (k_cnt (b_c (with_c s c1))))))) by exact K1. refine (yields_foldMM_inv _ keeps _ _ _ _ K1' Y). intros z j z' Ij Kz Yz. destruct (_ && _)%bool; [|apply yields_ret in Yz; now subst]. apply in_seq in Ij.
    destruct (Nat.eq_dec (S j) (length ms)) as [El | Nl].
    - (* the last crossbar *) unfold buf_transfer, transfer_g in Yz. cbv zeta in Yz. apply yields_bind in Yz as (i0 & _ & Yz). apply yields_bind in Yz as (z1 & Yz & Ez). apply yields_ret in Ez.
      assert (Br : forall lr i n y y', yields (buf_read t p (Nat.min (S j) (length ms - 1)) j lr i n y) y' -> y' = y). { intros lr0 i n y y' Yy. unfold buf_read in Yy. replace (Nat.min (S j) (length ms - 1) =? j)%nat with true in Yy by (symmetry; apply Nat.eqb_eq; lia). rewrite Bool.orb_true_r in Yy. cbn [orb] in Yy. now apply yields_ret in Yy. }
      assert (z1 = z) by (destruct (_ <? _)%nat; [apply yields_bind in Yz as (a & Y1 & Yz); apply Br in Y1; apply Br in Yz; congruence | now apply Br in Yz]). subst z1 z'. exact Kz.
    - assert (Em : Nat.min (S j) (length ms - 1) = S j) by lia. rewrite Em in Yz. eapply buf_transfer_keeps; [symmetry; exact Em | | exact Kz | exact Yz]. intros c Hc. apply Ol; [lia | exact Hc]. }
  destruct K2 as (H1 & H2 & H3). destruct (show_metas (KTransfer t) (b_c s2)) as [S1 S2]. split; [cbn [b_c with_c]; congruence|]. split; [cbn [b_c with_c]; congruence|]. exact H3.
Qed.
Lemma bhistory_keeps os s s' : Forall op_limited os -> keeps s -> bhistory t p s os s' -> keeps s'.
Proof. intros Fo K H. unfold bhistory in H. refine (yields_foldMM_inv _ keeps _ _ _ _ K H). intros b o b' Io Kb Yb. eapply buf_do_keeps; eauto. rewrite Forall_forall in Fo. auto. Qed.
End Inv.
(** ** one entry *)
Lemma next_forget p maxs g omega : 0 < g -> (1 <= maxs)%Z -> bp_forget p = true -> let b := buf_next p g omega (n_steps maxs (omega / g)) in Rabs b < g \/ b = omega * bp_mom p.
Proof.
  intros G Mx F. cbv zeta. destruct (buf_next_accounted p maxs g omega) as ((_ & _ & _ & W) & Z & NZ); [lia|]. set (k := n_steps maxs (omega / g)) in *. destruct (Z.eq_dec k 0) as [K | K].
  - left. rewrite (Z K). rewrite K in W. specialize (W ltac:(lia)). replace (IZR 0) with 0 in W by reflexivity. rewrite Rabs_R0, Rplus_0_l in W. unfold Rdiv in W. rewrite Rabs_mult, (Rabs_right (/ g)) in W by (apply Rle_ge, Rlt_le, Rinv_0_lt_compat; auto).
    apply (Rmult_lt_compat_r g) in W; auto. rewrite Rmult_assoc, Rinv_l in W by lra. lra.
  - right. rewrite (NZ K), F. reflexivity.
Qed.
Lemma next_keep p maxs g old dlt : 0 < g -> (1 <= maxs)%Z -> bp_forget p = false -> bp_mom p <= 0 -> Rabs old < g -> Rabs dlt <= IZR maxs * g -> Rabs (buf_next p g (old + dlt) (n_steps maxs ((old + dlt) / g))) < g.
Proof.
  intros G Mx F Mo Ho Hd. set (omega := old + dlt). assert (M0 : (1 - Rmax (Rmin (bp_mom p) 1) 0) = 1) by (unfold Rmin, Rmax; destruct (Rle_dec _ _); destruct (Rle_dec _ _); lra).
  destruct (buf_next_accounted p maxs g omega) as ((Ka & Kb & Ks & W) & Z & NZ); [lia|]. set (k := n_steps maxs (omega / g)) in *.
  assert (Eb : buf_next p g omega k = omega - IZR k * g). { destruct (Z.eq_dec k 0) as [K | K]; [rewrite (Z K), K; lra | rewrite (NZ K), F, M0; lra]. } rewrite Eb. clear Z NZ Eb.
  set (q := omega / g) in *. assert (Eo : omega = q * g) by (unfold q; field; lra). assert (Hq : Rabs q < IZR maxs + 1).
  { assert (Rabs omega < (IZR maxs + 1) * g). { unfold omega. eapply Rle_lt_trans; [apply Rabs_triang|]. lra. } rewrite Eo, Rabs_mult, (Rabs_right g) in H by lra. nra. }
  rewrite Eo. replace (q * g - IZR k * g) with ((q - IZR k) * g) by ring. rewrite Rabs_mult, (Rabs_right g) by lra. assert (Rabs (q - IZR k) < 1); [|nra].
  assert (Hw : Rabs q < Rabs (IZR k) + 1). { destruct (Z.eq_dec (Z.abs k) maxs) as [E | E]; [|apply W; lia]. rewrite <- abs_IZR, E. exact Hq. }
  revert Hw Kb Ks. unfold Rabs. repeat destruct (Rcase_abs _); intros; nra.
Qed.
