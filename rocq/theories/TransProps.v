(** * Buffered transfer (C72, C73) *)
From Verif Require Import Prelude Rand DevModel DevSpec DevProofs PulseModel PulseSpec PulseProofs PulseProps CompModel CompSpec CompProofs CompProofs2 CompProofs3 CompProofs4 CompProps CompProps5 CompProps6 TransModel TransSpec TransProofs.

Lemma NoDup_app_seq a k l : (l <= a)%nat -> NoDup (seq a k ++ seq 0 l).
Proof.
  intros H. revert a H. induction k as [|k IH]; intros a H; cbn [seq app]; [apply seq_NoDup|]. constructor; [|apply IH; lia]. rewrite in_app_iff, !in_seq. lia.
Qed.
(** the learning rate of a transfer to the next crossbar: as for plain transfer devices, times the
    quotient of the factors of the two crossbars if both are positive *)
Definition buffer_lr (t : tpar) (c : comp) (from : nat) (cur : R) : R :=
  let a := nth from (k_gam c) 0 in let b := nth (S from) (k_gam c) 0 in
  nth from (tp_lrs t) 0 * (if tp_scale t then cur else 1) * (if (Rltb 0 a && Rltb 0 b)%bool then a / b else 1).
Lemma buffer_lr_eq t c from cur : buf_lr t c (S from) from cur = buffer_lr t c from cur.
Proof. unfold buf_lr, buffer_lr, transfer_lr. cbv zeta. now rewrite Bool.andb_comm. Qed.
(** A transfer with ideal reads adds the learning rate times the weights of the selected columns
    (rows) to the buffer; of every entry the whole steps (in units of the granularity of the
    buffer, at most [desired_BL]) are taken out and written with that many steps to the next
    crossbar.  Everything else stays as it is. *)
Theorem C72_content : forall t p u from cur n m s s', let lr := buffer_lr t (b_c s) from cur in let start := nth from (k_slices (b_c s)) 0%nat in let ins := in_size t (b_c s) in
  let mt := fst (part_at (b_c s) (S from)) in
  ideal_read (tp_read t) -> tp_up t = init_upar u -> sensible u -> 0 < bp_step p -> lr <> 0 -> tp_random t = false -> rect n m (b_c s) -> buf_sized n m s -> (S from < length (k_parts (b_c s)))%nat ->
  0 < m_dwmin mt -> (start < ins)%nat -> yields (buf_transfer t p (S from) from cur s) s' ->
  (forall k, k <> S from -> part_at (b_c s') k = part_at (b_c s) k) /\ (forall q a b, q <> from -> buf_at s' q a b = buf_at s q a b) /\
  forall a b c, cell_at (d_cells (snd (part_at (b_c s) (S from)))) a b = Some c -> exists c', cell_at (d_cells (snd (part_at (b_c s') (S from)))) a b = Some c' /\
    (selected start (n_reads t (b_c s)) ins (slice_of t a b) ->
       exists k, accounted p (up_BL u) (bp_thres p * m_dwmin mt) (buf_at s from a b + Rabs lr * part_weight (b_c s) from a b) (buf_at s' from a b) k /\
                 pulsed_towards u mt (bp_step p * m_dwmin mt) (IZR k) c c') /\
    (~ selected start (n_reads t (b_c s)) ins (slice_of t a b) -> buf_at s' from a b = buf_at s from a b /\ c' = c).
Proof.
  intros t p u from cur n m s s' lr start ins mt IR U Hs St L Rn Rc [Lb Db] Lf Hg Hst Y. assert (L' := L). unfold lr in L'. rewrite <- buffer_lr_eq in L'. destruct (buf_transfer_moves t p (S from) from cur s s' L' ltac:(lia) Lf Rn Y) as (s1 & Ym & E'). fold ins start in Ym.
  rewrite buffer_lr_eq in Ym. fold lr in Ym. set (nr := n_reads t (b_c s)) in *. set (js := if (ins - start <? nr)%nat then _ else _) in Ym. assert (Hnr : (nr <= ins)%nat) by (unfold nr, n_reads; fold ins; lia).
  destruct (buf_moves_rest _ _ _ _ _ _ _ _ Ym) as [(_ & _ & Oq) Op].
  assert (Eb : forall q a b, buf_at s' q a b = buf_at s1 q a b) by (intros; rewrite E'; reflexivity). assert (Ep : forall k, part_at (b_c s') k = part_at (b_c s1) k) by (intros; rewrite E'; reflexivity).
  split; [intros k Nk; rewrite Ep; auto|]. split; [intros q a b Nq; rewrite Eb; unfold buf_at; now rewrite Oq|].
  intros a b c E.
  assert (ND : NoDup js). { unfold js. destruct (Nat.ltb_spec (ins - start) nr) as [Hr | Hr]; [|apply seq_NoDup]. apply NoDup_app_seq; lia. }
  assert (Lj : forall i, List.In i js -> (i < in_size t (b_c s))%nat). { intros i. unfold js. fold ins. destruct (Nat.ltb_spec (ins - start) nr); [rewrite in_app_iff, !in_seq; lia | rewrite in_seq; lia]. }
  assert (Lf' : (from < length (b_buf s))%nat) by lia. assert (D1 : dims (nth from (b_buf s) []) = repeat n m) by (rewrite Forall_forall in Db; apply Db; now apply nth_In).
  destruct (buf_moves_cell t u p (S from) from lr n m IR U Hs St ltac:(lia) js s s1 a b c ND Lj Rc Lf ltac:(lia) Lf' D1 Hg Ym E) as (_ & _ & _ & c' & E1 & H). exists c'. rewrite Ep, Eb. split; [exact E1|].
  assert (Hk : (slice_of t a b < ins)%nat).
  { unfold ins. rewrite (rect_in n m t _ Rc). unfold slice_of. pose proof Rc as (_ & _ & F). rewrite Forall_forall in F. specialize (F (part_at (b_c s) (S from)) (nth_In _ _ Lf)). destruct (repeat_dims_cells n m _ a b c F E). destruct (tp_columns t); auto. }
  assert (Hx : existsb (Nat.eqb (slice_of t a b)) js = true <-> selected start nr ins (slice_of t a b)).
  { rewrite (seq_split_mem start nr ins) by auto. fold js. rewrite existsb_exists. split; [intros (z & Iz & Ez); apply Nat.eqb_eq in Ez; now subst | intros I; exists (slice_of t a b); split; [exact I | apply Nat.eqb_refl]]. }
  unfold bentry in H. cbv zeta in H. fold mt in H. split; intros Se.
  - apply Hx in Se. rewrite Se in H. exact H.
  - destruct (existsb _ js) eqn:Ex; [exfalso; apply Se; now apply Hx | exact H].
Qed.

Print Assumptions C72_content.
