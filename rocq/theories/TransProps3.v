(** * Chopped transfer (C74, C75) *)
From Verif Require Import Prelude Rand DevModel DevSpec DevProofs PulseModel PulseSpec PulseProofs PulseProps CompModel CompSpec CompProofs CompProofs2 CompProofs3 CompProofs4 CompProps CompProps3 CompProps5 CompProps6 TransModel TransSpec TransProofs TransProps TransProofs2 TransProps2 TransProofs3.

Lemma chop_read_rest t p count to from lr i n s s' : yields (chop_read t p count to from lr i n s) s' ->
  same_rest (s_c s) (s_c s') /\ (forall k, k <> 1%nat -> part_at (s_c s') k = part_at (s_c s) k) /\ length (s_in s') = length (s_in s) /\ length (s_out s') = length (s_out s) /\ metas (s_c s') = metas (s_c s).
Proof.
  intros Y. destruct (Req_EM_T lr 0) as [-> | L].
  - unfold chop_read in Y. rewrite (proj2 (Reqb_true 0 0) eq_refl) in Y. apply yields_ret in Y. subst. split; [apply same_refl | auto].
  - assert (Y1 : yields (chop_read t p count 1 0 lr i 1 s) s').
    { unfold chop_read in *. rewrite (proj2 (Reqb_false lr 0) L) in *. destruct (negb (to =? 1)%nat && negb (from =? 1)%nat)%bool; [now apply yields_throw in Y|]. destruct (n =? 1)%nat; [exact Y | now apply yields_throw in Y]. }
    apply chop_read_mid in Y1 as (Ym & _ & _ & Li & Lo & _); [|exact L]. destruct (chop_mid_rest _ _ _ _ _ _ Ym) as ((Sr & _ & _) & O & Hm). split; [exact Sr|]. split; [exact O|]. auto.
Qed.
Lemma chop_transfer_rest t p count to from cur s s' : yields (chop_transfer t p count to from cur s) s' ->
  (forall k, k <> 1%nat -> part_at (s_c s') k = part_at (s_c s) k) /\ k_gam (s_c s') = k_gam (s_c s) /\ k_w (s_c s') = k_w (s_c s) /\ length (k_slices (s_c s')) = length (k_slices (s_c s)) /\ length (k_parts (s_c s')) = length (k_parts (s_c s)) /\
  length (s_in s') = length (s_in s) /\ length (s_out s') = length (s_out s) /\ k_cnt (s_c s') = k_cnt (s_c s) /\ metas (s_c s') = metas (s_c s).
Proof.
  unfold chop_transfer, transfer_g. cbv zeta. intros Y. apply yields_bind in Y as (i0 & _ & Y). apply yields_bind in Y as (s1 & Y & E). apply yields_ret in E.
  assert (H : same_rest (s_c s) (s_c s1) /\ (forall k, k <> 1%nat -> part_at (s_c s1) k = part_at (s_c s) k) /\ length (s_in s1) = length (s_in s) /\ length (s_out s1) = length (s_out s) /\ metas (s_c s1) = metas (s_c s)).
  { destruct (_ <? _)%nat; [|now apply chop_read_rest in Y]. apply yields_bind in Y as (a & Y1 & Y). apply chop_read_rest in Y1 as (A1 & A2 & A3 & A4 & A5). apply chop_read_rest in Y as (B1 & B2 & B3 & B4 & B5). split; [eapply same_trans; eauto|]. split; [intros; rewrite B2, A2; auto | repeat split; congruence]. }
  destruct H as ((G & W & I & C & Sl & L) & O & Li & Lo & Hm). subst s'. cbn [s_c put_c s_b with_c b_c s_in s_out k_gam k_w k_slices with_slices k_parts]. fold (s_c s1). rewrite set_nth_length, Sl. repeat split; auto.
Qed.
(** The pulses of an update go to the first crossbar only; at the cross points with sign -1 all of
    them are inverted. *)
Theorem C74_pulses : forall t p count cs lr mb s s', k_parts (s_c s) <> [] -> yields (chop_update t p count cs lr mb s) s' ->
  exists cs', gets cs' (part_at (s_c s) 0) (part_at (s_c s') 0) /\ forall i j, sent cs' i j = if Reqb (sign_at t s i j) 1 then sent cs i j else map negb (sent cs i j).
Proof.
  intros t p count cs lr mb s s' NE Y. unfold chop_update in Y. apply yields_bind in Y as (c1 & Y1 & Y). apply yields_bind in Y as (s1 & Y2 & Y). apply yields_ret in Y. exists (map (chop_call t s) cs). split.
  - assert (L0 : (0 < length (k_parts (s_c s)))%nat) by (destruct (k_parts (s_c s)); [congruence | simpl; lia]). pose proof (transfer_calls_gets _ _ _ L0 Y1) as G.
    assert (P0 : part_at (s_c s1) 0 = part_at c1 0).
    { unfold transfers_g in Y2. cbv zeta in Y2. refine (yields_foldMM_inv _ (fun z => part_at (s_c z) 0 = part_at c1 0) _ _ _ _ _ Y2); [|reflexivity]. intros z j z' _ Hz Yz. destruct (_ && _)%bool; [|apply yields_ret in Yz; now subst].
      apply (chop_transfer_rest t p count) in Yz as (O & _). rewrite O by lia. exact Hz. }
    assert (Ps : part_at (s_c s') 0 = part_at (s_c s1) 0).
    { subst s'. unfold chop_show. cbv zeta. assert (Sh : part_at (show (KTransfer t) (s_c s1)) 0 = part_at (s_c s1) 0) by (unfold show; destruct (hidden _); reflexivity). destruct (_ || _)%bool; exact Sh. }
    rewrite Ps, P0. exact G.
  - intros i j. unfold sent. assert (S1 : Reqb (sign_at t s i j) 1 = negb (chopped t s i j)).
    { rewrite <- chopped_sign. destruct (chopped t s i j); cbn [negb]; [apply Reqb_false; lra | apply Reqb_true; lra]. } rewrite S1.
    induction cs as [|c cs IH]; [destruct (chopped t s i j); reflexivity|]. cbn [map flat_map]. clear Y1.
    assert (IH' : flat_map (fun c0 => pulses_at (call_pulses c0) i j) (map (chop_call t s) cs) = if negb (chopped t s i j) then flat_map (fun c0 => pulses_at (call_pulses c0) i j) cs else map negb (flat_map (fun c0 => pulses_at (call_pulses c0) i j) cs)).
    { clear. induction cs as [|c cs IH]; [destruct (chopped t s i j); reflexivity|]. cbn [map flat_map]. rewrite IH, chop_call_pulses, pulses_at_flip. destruct (chopped t s i j); cbn [negb]; [rewrite map_app; f_equal; apply map_ext; intros []; reflexivity|]. f_equal. rewrite <- map_id. apply map_ext. intros []; reflexivity. }
    rewrite IH', chop_call_pulses, pulses_at_flip. destruct (chopped t s i j); cbn [negb]; [rewrite map_app; f_equal; apply map_ext; intros []; reflexivity|]. f_equal. rewrite <- map_id. apply map_ext. intros []; reflexivity.
Qed.
Lemma the_scale_doc t p count lr c : the_scale t p count lr c = final_transfer_lr p (in_size t c) (m_dwmin (fst (part_at c 0))) (m_dwmin (fst (part_at c 1))) lr count.
Proof.
  unfold the_scale, lr_scale, final_transfer_lr, chop_gran. cbv zeta. set (dA := m_dwmin (fst (part_at c 0))). set (dC := m_dwmin (fst (part_at c 1))). set (bg := if Rltb 0 (cp_gran p) then cp_gran p else 1).
  destruct (Rltb 0 (cp_auto_gran p)).
  - replace (bg * dA * (cp_auto_gran p / (INR (in_size t c) * Rabs (cp_every p)))) with (bg * (dA * cp_auto_gran p / (INR (in_size t c) * Rabs (cp_every p)))) by (unfold Rdiv; ring). destruct (cp_correct p); [unfold Rdiv; ring | reflexivity].
  - rewrite Rmult_1_r. destruct (cp_correct p); [unfold Rdiv; ring | reflexivity].
Qed.
Lemma chop_step t p count cur s s' : let ins := in_size t (s_c s) in let i := nth 0 (k_slices (s_c s)) 0%nat in let lr := buffer_lr t (s_c s) 0 cur in
  tp_random t = false -> tp_reads t = 1%nat -> (i < ins)%nat -> yields (chop_transfer t p count 1 0 cur s) s' ->
  exists s1, yields (chop_read t p count 1 0 lr i 1 s) s1 /\ s' = put_c s1 (with_slices (s_c s1) (set_nth 0 ((i + 1) mod ins)%nat (k_slices (s_c s1)))).
Proof.
  intros ins i lr Rn Rd Li Y. unfold chop_transfer, transfer_g in Y. cbv zeta in Y. rewrite Rn in Y. cbn [bindM] in Y. fold ins i in Y. rewrite Rd in Y. replace (Nat.min 1 ins) with 1%nat in Y by lia. replace (ins - i <? 1)%nat with false in Y by (symmetry; apply Nat.ltb_ge; lia).
  rewrite buffer_lr_eq in Y. fold lr in Y. apply yields_bind in Y as (s1 & Y & E). apply yields_ret in E. exists s1. split; [exact Y | exact E].
Qed.
(** A transfer reads the next column (row), takes the signs back, and follows the documented
    recursion of the buffer; only that column (row) of the buffer and of the second crossbar change. *)
Theorem C74_content : forall t p u count cur n m s s', let c := s_c s in let lr := buffer_lr t c 0 cur in let start := nth 0 (k_slices c) 0%nat in
  let dA := m_dwmin (fst (part_at c 0)) in let mC := fst (part_at c 1) in let f := final_transfer_lr p (in_size t c) dA (m_dwmin mC) lr count in
  ideal_read (tp_read t) -> tp_up t = init_upar u -> sensible u -> 0 < bp_step (cp_b p) -> lr <> 0 -> tp_random t = false -> tp_reads t = 1%nat -> rect n m c -> buf_sized n m (s_b s) -> (1 < length (k_parts c))%nat ->
  0 < m_dwmin mC -> (start < in_size t c)%nat -> yields (chop_transfer t p count 1 0 cur s) s' ->
  (forall k, k <> 1%nat -> part_at (s_c s') k = part_at c k) /\ nth 0 (k_slices (s_c s')) 0%nat = (if (0 <? length (k_slices c))%nat then (start + 1) mod in_size t c else 0)%nat /\
  forall a b x, cell_at (d_cells (snd (part_at c 1))) a b = Some x -> exists x', cell_at (d_cells (snd (part_at (s_c s') 1))) a b = Some x' /\
    if (slice_of t a b =? start)%nat
    then exists k, recursion (cp_b p) (up_BL u) ((if cp_no_buffer p then 0 else cbuf_at s a b) + sign_at t s a b * f * part_weight c 0 a b) (cbuf_at s' a b) k /\
                   pulsed_towards u mC (bp_step (cp_b p) * m_dwmin mC) (IZR k) x x'
    else cbuf_at s' a b = cbuf_at s a b /\ x' = x.
Proof.
  intros t p u count cur n m s s' c lr start dA mC f IR U Hs St L Rn Rd Rc [Lb Db] Lp Hg Hst Y. pose proof (chop_transfer_rest _ _ _ _ _ _ _ _ Y) as (O & _). split; [exact O|].
  destruct (chop_step t p count cur s s' Rn Rd Hst Y) as (s1 & Y1 & E'). fold c lr start in Y1, E'. pose proof (chop_read_rest _ _ _ _ _ _ _ _ _ _ Y1) as ((_ & _ & _ & _ & Sl & _) & _). apply chop_read_mid in Y1 as (Ym & _); [|exact L].
  split. { rewrite E'. cbn [s_c put_c s_b with_c b_c k_slices with_slices]. rewrite set_nth_nth, Nat.eqb_refl. fold c in Sl. fold (s_c s1). rewrite Sl. cbn [andb]. destruct (Nat.ltb_spec 0 (length (k_slices c))) as [H | H]; [reflexivity|]. destruct (k_slices c); [reflexivity | cbn in H; lia]. }
  intros a b x E. assert (Lb0 : (0 < length (b_buf (s_b s)))%nat) by (rewrite Lb; fold (s_c s); fold c; lia). assert (D0 : dims (nth 0 (b_buf (s_b s)) []) = repeat n m) by (rewrite Forall_forall in Db; apply Db; now apply nth_In).
  destruct (chop_mid_cell t u p _ n m s start (s_b s1) a b x IR U Hs St Rc Lp Lb0 D0 Hg Hst Ym E) as (_ & _ & x' & E1 & H). exists x'. rewrite E'. split; [exact E1|]. change (cbuf_at (put_c s1 _) a b) with (buf_at (s_b s1) 0 a b).
  destruct (slice_of t a b =? start)%nat; [|exact H]. destruct H as (k & Hr & Hp). exists k. split; [|exact Hp]. unfold chop_omega in Hr. rewrite the_scale_doc in Hr. exact Hr.
Qed.

Print Assumptions C74_pulses.
Print Assumptions C74_content.
