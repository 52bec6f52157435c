(** * Buffered transfer (C72, C73) *)
From Verif Require Import Prelude Rand DevModel DevSpec DevProofs PulseModel PulseSpec PulseProofs PulseProps CompModel CompSpec CompProofs CompProofs2 CompProofs3 CompProofs4 CompProps CompProps5 CompProps6 TransModel TransSpec TransProofs TransProps TransProofs2.

(** Without forgetting and momentum nothing is lost: what was added to the buffer is either still in
    it or was written, [k] steps of the size of the granularity. *)
Theorem C72_conservation : forall t p u from cur n m s s' a b c, let lr := buffer_lr t (b_c s) from cur in let start := nth from (k_slices (b_c s)) 0%nat in let ins := in_size t (b_c s) in
  let mt := fst (part_at (b_c s) (S from)) in
  bp_forget p = false -> bp_mom p <= 0 ->
  ideal_read (tp_read t) -> tp_up t = init_upar u -> sensible u -> 0 < bp_step p -> lr <> 0 -> tp_random t = false -> rect n m (b_c s) -> buf_sized n m s -> (S from < length (k_parts (b_c s)))%nat ->
  0 < m_dwmin mt -> (start < ins)%nat -> yields (buf_transfer t p (S from) from cur s) s' ->
  cell_at (d_cells (snd (part_at (b_c s) (S from)))) a b = Some c -> selected start (n_reads t (b_c s)) ins (slice_of t a b) ->
  exists k c', cell_at (d_cells (snd (part_at (b_c s') (S from)))) a b = Some c' /\ pulsed_towards u mt (bp_step p * m_dwmin mt) (IZR k) c c' /\
    buf_at s' from a b + IZR k * buf_gran p (b_c s) from = buf_at s from a b + Rabs lr * part_weight (b_c s) from a b.
Proof.
  intros t p u from cur n m s s' a b c lr start ins mt F Mo IR U Hs St L Rn Rc Bs Lf Hg Hst Y E Se.
  destruct (C72_content t p u from cur n m s s' IR U Hs St L Rn Rc Bs Lf Hg Hst Y) as (_ & _ & H). destruct (H a b c E) as (c' & E' & H1 & _). destruct (H1 Se) as (k & (_ & Z & NZ) & Pt). exists k, c'. split; [exact E'|]. split; [exact Pt|].
  unfold buf_gran. fold mt. fold lr in Z, NZ. fold mt in Z, NZ. assert (M0 : (1 - Rmax (Rmin (bp_mom p) 1) 0) = 1) by (unfold Rmin, Rmax; destruct (Rle_dec _ _); destruct (Rle_dec _ _); lra).
  destruct (Z.eq_dec k 0) as [K | K]; [rewrite (Z K), K; lra | rewrite (NZ K), F, M0; lra].
Qed.
(** With [forget_buffer] and no momentum the entries of the buffers stay below the granularity in
    any history of calls, whatever is read. *)
Theorem C73_forget : forall t p s os s', bp_forget p = true -> bp_mom p = 0 -> (1 <= up_BL (tp_up t))%Z ->
  (forall from, (S from < length (k_parts (b_c s)))%nat -> 0 < buf_gran p (b_c s) from /\ forall a b, Rabs (buf_at s from a b) < buf_gran p (b_c s) from) ->
  bhistory t p s os s' ->
  forall from a b, (S from < length (k_parts (b_c s)))%nat -> buf_gran p (b_c s') from = buf_gran p (b_c s) from /\ Rabs (buf_at s' from a b) < buf_gran p (b_c s) from.
Proof.
  intros t p s os s' F Mo Bl H0 H. set (ms := metas (b_c s)).
  assert (Ln : length ms = length (k_parts (b_c s))) by apply metas_len. assert (Gr : forall from, gran p ms from = buf_gran p (b_c s) from) by (intros; unfold gran, buf_gran, ms; now rewrite metas_nth).
  set (P := fun from x => (S from < length ms)%nat -> Rabs x < gran p ms from).
  assert (K : keeps ms (k_gam (b_c s)) P s'). {
    apply (bhistory_keeps t p ms (k_gam (b_c s)) P (fun _ _ => True)) with (os := os) (s := s); [| | | | exact H].
    - intros from L. rewrite Gr, Rabs_R0. apply H0. lia.
    - intros from old dlt L Po _ _. assert (G : 0 < gran p ms from) by (rewrite Gr; apply H0; lia). destruct (next_forget p (up_BL (tp_up t)) (gran p ms from) (old + dlt) G Bl F) as [A | A]; [exact A|]. rewrite A, Mo, Rmult_0_r, Rabs_R0. exact G.
    - apply Forall_forall. intros o _. destruct o; try exact Logic.I. intros from c _ _ w x out j _. exact Logic.I.
    - split; [reflexivity|]. split; [reflexivity|]. intros from a b L. rewrite Gr. apply H0. lia. }
  destruct K as (K1 & _ & K3). intros from a b L. split; [unfold buf_gran; now rewrite <- !metas_nth, K1|]. rewrite <- Gr. apply K3. lia.
Qed.
(** With momentum and bounded reads they stay below any [x] with [momentum * (x + l) <= x], where
    [l] is the largest learning rate times the largest output of a read. *)
Theorem C73_momentum : forall t p s os s' o x l, bp_forget p = true -> 0 <= bp_mom p -> (1 <= up_BL (tp_up t))%Z -> 0 <= o -> read_bounded t o ->
  (forall cs cur mb from, List.In (CUpdate cs cur mb) os -> (S from < length (k_parts (b_c s)))%nat -> Rabs (buffer_lr t (b_c s) from cur) * o <= l) ->
  bp_mom p * (x + l) <= x ->
  (forall from, (S from < length (k_parts (b_c s)))%nat -> 0 < buf_gran p (b_c s) from <= x /\ forall a b, Rabs (buf_at s from a b) <= x) ->
  bhistory t p s os s' -> forall from a b, (S from < length (k_parts (b_c s)))%nat -> Rabs (buf_at s' from a b) <= x.
Proof.
  intros t p s os s' o x l F Mo Bl Ho Rb Hl Hx H0 H. set (ms := metas (b_c s)).
  assert (Ln : length ms = length (k_parts (b_c s))) by apply metas_len. assert (Gr : forall from, gran p ms from = buf_gran p (b_c s) from) by (intros; unfold gran, buf_gran, ms; now rewrite metas_nth).
  set (P := fun from y => (S from < length ms)%nat -> Rabs y <= x).
  assert (K : keeps ms (k_gam (b_c s)) P s'). {
    apply (bhistory_keeps t p ms (k_gam (b_c s)) P (fun _ d => Rabs d <= l)) with (os := os) (s := s); [| | | | exact H].
    - intros from L. rewrite Rabs_R0. destruct (H0 from) as [Hg _]; [lia | lra].
    - intros from old dlt L Po Hd Lf. destruct (H0 from) as [Hg _]; [lia|]. assert (G : 0 < gran p ms from) by (rewrite Gr; lra). destruct (next_forget p (up_BL (tp_up t)) (gran p ms from) (old + dlt) G Bl F) as [A | A]; [rewrite Gr in A at 3; lra|].
      rewrite A, Rabs_mult, (Rabs_right (bp_mom p)) by lra. pose proof (Rabs_triang old dlt). specialize (Po Lf). eapply Rle_trans; [|exact Hx]. rewrite Rmult_comm. apply Rmult_le_compat_l; lra.
    - apply Forall_forall. intros op Io. destruct op; try exact Logic.I. intros from c Lf Eg w y out j Yr. rewrite Rabs_mult, Rabs_Rabsolu. rewrite buffer_lr_eq.
      replace (buffer_lr t c from lr) with (buffer_lr t (b_c s) from lr) by (unfold buffer_lr; now rewrite Eg). eapply Rle_trans; [|apply (Hl cs lr mb from Io); lia]. rewrite Rmult_comm. apply Rmult_le_compat_l; [apply Rabs_pos | eapply Rb; eauto].
    - split; [reflexivity|]. split; [reflexivity|]. intros from a b L. apply H0. lia. }
  destruct K as (K1 & _ & K3). intros from a b L. apply K3. lia.
Qed.
(** Without forgetting and momentum they stay below the granularity if a read adds at most
    [desired_BL] steps. *)
Theorem C73_keep : forall t p s os s' o, bp_forget p = false -> bp_mom p <= 0 -> (1 <= up_BL (tp_up t))%Z -> 0 <= o -> read_bounded t o ->
  (forall cs cur mb from, List.In (CUpdate cs cur mb) os -> (S from < length (k_parts (b_c s)))%nat -> Rabs (buffer_lr t (b_c s) from cur) * o <= IZR (up_BL (tp_up t)) * buf_gran p (b_c s) from) ->
  (forall from, (S from < length (k_parts (b_c s)))%nat -> 0 < buf_gran p (b_c s) from /\ forall a b, Rabs (buf_at s from a b) < buf_gran p (b_c s) from) ->
  bhistory t p s os s' -> forall from a b, (S from < length (k_parts (b_c s)))%nat -> Rabs (buf_at s' from a b) < buf_gran p (b_c s) from.
Proof.
  intros t p s os s' o F Mo Bl Ho Rb Hl H0 H. set (ms := metas (b_c s)).
  assert (Ln : length ms = length (k_parts (b_c s))) by apply metas_len. assert (Gr : forall from, gran p ms from = buf_gran p (b_c s) from) by (intros; unfold gran, buf_gran, ms; now rewrite metas_nth).
  set (P := fun from y => (S from < length ms)%nat -> Rabs y < gran p ms from).
  assert (K : keeps ms (k_gam (b_c s)) P s'). {
    apply (bhistory_keeps t p ms (k_gam (b_c s)) P (fun from d => Rabs d <= IZR (up_BL (tp_up t)) * gran p ms from)) with (os := os) (s := s); [| | | | exact H].
    - intros from L. rewrite Gr, Rabs_R0. apply H0. lia.
    - intros from old dlt L Po Hd Lf. apply next_keep; auto. rewrite Gr. apply H0. lia.
    - apply Forall_forall. intros op Io. destruct op; try exact Logic.I. intros from c Lf Eg w y out j Yr. rewrite Rabs_mult, Rabs_Rabsolu. rewrite buffer_lr_eq, Gr.
      replace (buffer_lr t c from lr) with (buffer_lr t (b_c s) from lr) by (unfold buffer_lr; now rewrite Eg). eapply Rle_trans; [|apply (Hl cs lr mb from Io); lia]. rewrite Rmult_comm. apply Rmult_le_compat_l; [apply Rabs_pos | eapply Rb; eauto].
    - split; [reflexivity|]. split; [reflexivity|]. intros from a b L. rewrite Gr. apply H0. lia. }
  destruct K as (K1 & _ & K3). intros from a b L. rewrite <- Gr. apply K3. lia.
Qed.
(** Calls other than updates do not touch the buffers. *)
Theorem C73_other_calls : forall t p s o s', match o with CUpdate _ _ _ => False | _ => True end -> yields (buf_do t p s o) s' -> forall from a b, buf_at s' from a b = buf_at s from a b.
Proof. intros t p s o s' No Y from a b. destruct o; try contradiction; cbn [buf_do] in Y; apply yields_bind in Y as (c1 & _ & E); apply yields_ret in E; subst s'; reflexivity. Qed.
(** So setting the weights, which clears the crossbars and restarts the schedule, leaves the
    remainders of the old weights in the buffers. *)
Definition bpar_ex (f : bool) (mom : R) : bpar := {| bp_thres := 1; bp_step := 1; bp_mom := mom; bp_forget := f |}.
Definition bstate_ex (x : R) : bstate := {| b_c := comp1 [0; 1] [3/10; 0] 0 0; b_buf := [[[x]]] |}.
Theorem C73_set_weights_refuted : exists s', yields (buf_do (tpar_ex [1; 1] false [1; 0]) (bpar_ex true 0) (bstate_ex (1/20)) (CSet [[0]])) s' /\
  (forall k, (k < 2)%nat -> part_weight (b_c s') k 0 0 = 0) /\ k_cnt (b_c s') = 0%nat /\ buf_at s' 0 0 0 = 1/20.
Proof.
  set (t := tpar_ex [1; 1] false [1; 0]). assert (Y : yields (cdo (KTransfer t) (b_c (bstate_ex (1/20))) (CSet [[0]])) (show (KTransfer t) (with_parts (b_c (bstate_ex (1/20))) [part1 0; part1 0]))).
  { cbn [cdo set_weights]. cbv zeta. cbn [t tpar_ex tp_hidden]. rewrite (proj2 (Reqb_false _ 0)) by (cbn; lra). apply yields_bind. exists [part1 0; part1 0]. split.
    - apply yields_mapMM. cbn [bstate_ex b_c comp1 k_parts map zipi length seq combine]. repeat constructor; cbn [fst snd Nat.eqb Nat.sub map].
      + rewrite set_part1 by lra. now apply yields_ret.
      + match goal with |- yields (part_op (OSet [[?v]]) _) _ => replace v with 0 by (cbn; lra) end. rewrite set_part1 by lra. now apply yields_ret.
    - apply yields_ret. reflexivity. }
  eexists. split; [cbn [buf_do]; apply yields_bind; eexists; split; [exact Y | apply yields_ret; reflexivity]|]. split; [|split; reflexivity]. intros k Lk. destruct k as [|[|k]]; [reflexivity | reflexivity | lia].
Qed.
(** Reading rows of a tile with more columns than rows writes behind the end of a temporary
    vector (undefined behaviour). *)
Theorem C72_wide_rows_refuted : forall t p from cur s, tp_columns t = false -> tp_random t = false -> (length (k_w (b_c s)) < length (nth 0 (k_w (b_c s)) []))%nat -> (0 < tp_reads t)%nat ->
  buffer_lr t (b_c s) from cur <> 0 -> (S from < length (k_parts (b_c s)))%nat -> (nth from (k_slices (b_c s)) 0 < length (k_w (b_c s)))%nat ->
  buf_transfer t p (S from) from cur s = Throw IndexError.
Proof.
  intros t p from cur s C Rn W Rd L Lf St. rewrite <- buffer_lr_eq in L. unfold buf_transfer, transfer_g. cbv zeta. rewrite Rn. cbn [bindM].
  assert (Br : forall i n, (0 < n)%nat -> buf_read t p (S from) from (buf_lr t (b_c s) (S from) from cur) i n s = Throw IndexError).
  { intros i n Hn. unfold buf_read. rewrite (proj2 (Reqb_false _ 0) L), (proj2 (Nat.eqb_neq (S from) from)) by lia. cbn [orb]. replace (length (k_parts (b_c s)) - 1 <=? from)%nat with false by (symmetry; apply Nat.leb_gt; lia).
    rewrite (proj2 (Nat.ltb_lt 0 n) Hn). unfold out_size. rewrite C. rewrite (proj2 (Nat.ltb_lt _ _) W). reflexivity. }
  unfold in_size. rewrite C. destruct (_ <? _)%nat; rewrite Br by lia; reflexivity.
Qed.
Example C72_example : let t := tpar_ex [1; 1] false [1; 0] in let p := bpar_ex false 0 in let s := bstate_ex (1/20) in
  ideal_read (tp_read t) /\ tp_up t = init_upar up_ex /\ sensible up_ex /\ 0 < bp_step p /\ buffer_lr t (b_c s) 0 1 <> 0 /\ rect 1 1 (b_c s) /\ buf_sized 1 1 s /\ (1 < length (k_parts (b_c s)))%nat /\
  0 < m_dwmin (fst (part_at (b_c s) 1)) /\ (nth 0 (k_slices (b_c s)) 0 < in_size t (b_c s))%nat /\ selected 0 (n_reads t (b_c s)) (in_size t (b_c s)) (slice_of t 0 0) /\ exists s', yields (buf_transfer t p 1 0 1 s) s'.
Proof.
  cbv zeta. split; [intros w x; reflexivity|]. split; [reflexivity|]. split; [split; simpl; [lia | lra]|]. split; [cbn; lra|].
  assert (E : buffer_lr (tpar_ex [1; 1] false [1; 0]) (b_c (bstate_ex (1 / 20))) 0 1 = 1). { unfold buffer_lr. cbn [bstate_ex b_c comp1 k_gam nth tpar_ex tp_lrs tp_scale]. rewrite (proj2 (Rltb_false 0 0)) by lra. cbn [andb]. lra. }
  split; [rewrite E; lra|]. split; [repeat split; try lia; repeat constructor|]. split; [split; [reflexivity | repeat constructor]|]. split; [cbn; lia|]. split; [cbn; lra|]. split; [cbn; lia|]. split; [exists 0%nat; split; [cbn; lia | reflexivity]|].
  apply total_yields. unfold buf_transfer, transfer_g. cbv zeta. cbn [tp_random tpar_ex bindM]. rewrite buffer_lr_eq. change (bindM _ _) with (bindM (buf_read (tpar_ex [1; 1] false [1; 0]) (bpar_ex false 0) 1 0 (buffer_lr (tpar_ex [1; 1] false [1; 0]) (b_c (bstate_ex (1 / 20))) 0 1) 0 1 (bstate_ex (1 / 20)))
    (fun s1 => Ret (with_c s1 (with_slices (b_c s1) (set_nth 0 ((0 + 1) mod 1) (k_slices (b_c s1))))))). apply total_bind; [|intros; apply total_ret]. rewrite E. unfold buf_read. rewrite (proj2 (Reqb_false 1 0)) by lra. cbn [orb Nat.eqb bstate_ex b_c comp1 k_parts map length Nat.sub Nat.leb].
  cbn [k_w out_size tpar_ex tp_columns Nat.ltb Nat.leb length andb]. apply total_foldMM. intros b a Ia. destruct Ia as [<- | []]. 
  unfold buf_move. cbv zeta. apply total_bind; [cbn; apply total_ret|]. intros out _. apply total_bind; [|intros; apply total_ret]. destruct (existsb _ _); [|apply total_ret]. unfold write_slice, upd_part. apply total_bind; [|intros; apply total_ret]. apply upd_nth_total. intros q. apply total_bind; [|intros; apply total_ret]. apply update_vector_total.
Qed.
Example C73_example : (forall from, (S from < length (k_parts (b_c (bstate_ex (1/20)))))%nat -> 0 < buf_gran (bpar_ex true 0) (b_c (bstate_ex (1/20))) from /\ forall a b, Rabs (buf_at (bstate_ex (1/20)) from a b) < buf_gran (bpar_ex true 0) (b_c (bstate_ex (1/20))) from) /\
  bhistory (tpar_ex [1; 1] false [1; 0]) (bpar_ex true 0) (bstate_ex (1/20)) [] (bstate_ex (1/20)) /\ (1/10) * (2 + 3) <= 2.
Proof.
  split; [|split; [constructor | lra]]. intros from L. cbn in L. replace from with 0%nat by lia. unfold buf_gran. cbn [bpar_ex bp_thres bstate_ex b_c comp1 part_at k_parts map nth fst part1 mt0 m_dwmin]. split; [lra|]. intros a b. unfold buf_at. cbn [b_buf bstate_ex nth]. unfold at_.
  destruct a as [|[|a]]; cbn [nth]; [destruct b as [|[|b]]; cbn [nth]; try (rewrite Rabs_R0; lra); rewrite Rabs_right; lra | destruct b; rewrite Rabs_R0; lra | destruct b; rewrite Rabs_R0; lra].
Qed.

Print Assumptions C72_conservation.
Print Assumptions C73_forget.
Print Assumptions C73_momentum.
Print Assumptions C73_keep.
Print Assumptions C73_other_calls.
Print Assumptions C73_set_weights_refuted.
Print Assumptions C72_wide_rows_refuted.
