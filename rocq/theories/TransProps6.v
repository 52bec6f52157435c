(** * Chopped transfer without choppers is buffered transfer (C77) *)
From Verif Require Import Prelude Rand DevModel DevSpec DevProofs PulseModel PulseSpec PulseProofs PulseProps CompModel CompSpec CompProofs CompProofs2 CompProofs3 CompProofs4 CompProps CompProps3 CompProps5 CompProps6 TransModel TransSpec TransProofs TransProps TransProofs2 TransProps2 TransProofs3 TransProps3 TransProps4.

(** the state of a buffered device with the crossbars of [s] and its buffer in units of [g] *)
Definition scaled (g : R) (B : list mat) : list mat := map (map (map (Rmult g))) B.
Definition as_buffered (g : R) (s : cstate) : bstate := {| b_c := s_c s; b_buf := scaled g (b_buf (s_b s)) |}.
Definition no_chopper (s : cstate) : Prop := (forall k, nth k (s_in s) false = false) /\ (forall k, nth k (s_out s) false = false).
Lemma at_scaled g m i j : at_ (map (map (Rmult g)) m) i j = g * at_ m i j.
Proof.
  unfold at_. destruct (Nat.lt_ge_cases i (length m)) as [H | H].
  - rewrite (nth_indep _ [] (map (Rmult g) [])) by (rewrite map_length; exact H). rewrite (map_nth (map (Rmult g))). destruct (Nat.lt_ge_cases j (length (nth i m []))) as [H1 | H1].
    + rewrite (nth_indep _ 0 (g * 0)) by (rewrite map_length; exact H1). now rewrite (map_nth (Rmult g)).
    + rewrite !nth_overflow; [lra | exact H1 | rewrite map_length; exact H1].
  - rewrite (nth_overflow (map _ m)) by (rewrite map_length; exact H). rewrite (nth_overflow m) by exact H. destruct j; cbn [nth]; lra.
Qed.
Lemma nth_scaled g B k : nth k (scaled g B) [] = map (map (Rmult g)) (nth k B []).
Proof. exact (map_nth (map (map (Rmult g))) B [] k). Qed.
Lemma zipi_map {A B} (f : A -> B) l : zipi (map f l) = map (fun kx => (fst kx, f (snd kx))) (zipi l).
Proof. unfold zipi. rewrite map_length. generalize 0%nat as k. induction l as [|a l IH]; intros k; [reflexivity|]. cbn [length seq map combine fst snd]. now rewrite IH. Qed.
Lemma map_slice_scaled g cols k f h m : (forall j x, f j (g * x) = g * h j x) -> map_slice cols k f (map (map (Rmult g)) m) = map (map (Rmult g)) (map_slice cols k h m).
Proof.
  intros H. unfold map_slice. rewrite zipi_map, !map_map. apply map_ext. intros [a row]. cbn [fst snd]. rewrite zipi_map, !map_map. apply map_ext. intros [b x]. cbn [fst snd]. destruct (_ =? k)%nat; [apply H | reflexivity].
Qed.
Lemma set_nth_scaled g k m B : set_nth k (map (map (Rmult g)) m) (scaled g B) = scaled g (set_nth k m B).
Proof. unfold scaled. revert k. induction B as [|b B IH]; intros [|k]; cbn [map set_nth]; try reflexivity. now rewrite IH. Qed.
Lemma next_scaled p maxs g om : (1 <= maxs)%Z -> 0 < g -> n_steps maxs (g * om / g) = snd (chop_next p maxs om) /\ buf_next p g (g * om) (n_steps maxs (g * om / g)) = g * fst (chop_next p maxs om) /\ ((n_steps maxs (g * om / g) =? 0)%Z = negb (Rleb 1 (Rabs om))).
Proof.
  intros Hm Hg. replace (g * om / g) with om by (field; lra). pose proof (n_steps_spec maxs om ltac:(lia)) as (A & B & C & D). unfold chop_next, buf_next. cbv zeta. destruct (Rleb 1 (Rabs om)) eqn:E; [apply Rleb_true in E | apply Rleb_false in E]; cbn [fst snd negb].
  - assert (N : n_steps maxs om <> 0%Z). { intros Z. rewrite Z in *. specialize (D ltac:(lia)). rewrite Rabs_R0 in D. lra. } apply Z.eqb_neq in N. rewrite N. split; [reflexivity|]. split; [|reflexivity]. destruct (bp_forget p); ring.
  - assert (Z : n_steps maxs om = 0%Z). { destruct (Z.eq_dec (n_steps maxs om) 0) as [Z | Z]; [exact Z|]. exfalso. assert (1 <= Rabs (IZR (n_steps maxs om))) by (rewrite Rabs_Zabs; apply IZR_le; lia). lra. }
    rewrite Z. cbn [Z.eqb]. auto.
Qed.
Section Same.
Variables (t : tpar) (p : bpar) (q : cpar) (g count : R).
Hypothesis (Rn : tp_random t = false) (Rd : tp_reads t = 1%nat) (Bl : (1 <= up_BL (tp_up t))%Z) (Hg : 0 < g).
Hypothesis (Em : bp_mom (cp_b q) = bp_mom p) (Ef : bp_forget (cp_b q) = bp_forget p) (Es : bp_step (cp_b q) = bp_step p).
Hypothesis (Ip : cp_in_prob q <= 0) (Op : cp_out_prob q <= 0) (Nb : cp_no_buffer q = false).
(** the two devices use the same unit of the buffer *)
Definition same_unit (s : cstate) : Prop := bp_thres p * m_dwmin (fst (part_at (s_c s) 1)) = g /\ forall lr, lr_scale q (in_size t (s_c s)) (m_dwmin (fst (part_at (s_c s) 0))) (m_dwmin (fst (part_at (s_c s) 1))) lr count = Rabs lr / g.
Lemma chop_next_p om : chop_next (cp_b q) (up_BL (tp_up t)) om = chop_next p (up_BL (tp_up t)) om.
Proof. unfold chop_next. now rewrite Em, Ef. Qed.
Lemma existsb_map {A B} (f : A -> B) h l : existsb h (map f l) = existsb (fun a => h (f a)) l.
Proof. induction l as [|a l IH]; [reflexivity|]. cbn [map existsb]. now rewrite IH. Qed.
Lemma existsb_ext' {A} (f h : A -> bool) l : (forall a, f a = h a) -> existsb f l = existsb h l.
Proof. intros H. induction l as [|a l IH]; [reflexivity|]. cbn [existsb]. now rewrite H, IH. Qed.
Lemma move_same s lr i b' : no_chopper s -> same_unit s -> yields (buf_move t p 1 0 lr (as_buffered g s) i) b' <-> exists b1, yields (chop_mid t q (Rabs lr / g) i s) b1 /\ b' = {| b_c := b_c b1; b_buf := scaled g (b_buf b1) |}.
Proof.
  intros [Ni No] [U _]. unfold buf_move, chop_mid. cbv zeta. cbn [as_buffered b_c b_buf]. change (nth 1 (k_parts (s_c s)) no_part) with (part_at (s_c s) 1). rewrite U, nth_scaled, Nb, Es.
  set (B := nth 0 (b_buf (s_b s)) []). 
  assert (Om : forall out j, (if tp_columns t then at_ (map (map (Rmult g)) B) j i else at_ (map (map (Rmult g)) B) i j) + nth j out 0 * Rabs lr =
    g * ((if tp_columns t then at_ B j i else at_ B i j) + (if Bool.eqb (flag (s_in s) i) (flag (s_out s) j) then nth j out 0 * (Rabs lr / g) else - (nth j out 0 * (Rabs lr / g))))).
  { intros out j. unfold flag. rewrite Ni, No. cbn [Bool.eqb]. destruct (tp_columns t); rewrite at_scaled; field; lra. }
  assert (K : forall out, let om j := (if tp_columns t then at_ B j i else at_ B i j) + (if Bool.eqb (flag (s_in s) i) (flag (s_out s) j) then nth j out 0 * (Rabs lr / g) else - (nth j out 0 * (Rabs lr / g))) in
    let omb j := (if tp_columns t then at_ (map (map (Rmult g)) B) j i else at_ (map (map (Rmult g)) B) i j) + nth j out 0 * Rabs lr in
    existsb (fun z => negb (z =? 0)%Z) (map (fun j => n_steps (up_BL (tp_up t)) (omb j / g)) (seq 0 (out_size t (s_c s)))) = existsb (fun j => Rleb 1 (Rabs (om j))) (seq 0 (out_size t (s_c s))) /\
    map (fun z => - IZR z) (map (fun j => n_steps (up_BL (tp_up t)) (omb j / g)) (seq 0 (out_size t (s_c s)))) = map (fun j => - IZR (snd (chop_next (cp_b q) (up_BL (tp_up t)) (om j)))) (seq 0 (out_size t (s_c s))) /\
    set_nth 0 (map_slice (tp_columns t) i (fun j _ => buf_next p g (omb j) (n_steps (up_BL (tp_up t)) (omb j / g))) (map (map (Rmult g)) B)) (scaled g (b_buf (s_b s))) =
    scaled g (set_nth 0 (map_slice (tp_columns t) i (fun j _ => fst (chop_next (cp_b q) (up_BL (tp_up t)) (om j))) B) (b_buf (s_b s)))).
  { intros out om omb. assert (E : forall j, omb j = g * om j) by (intros; apply Om). split; [|split].
    - rewrite existsb_map. apply existsb_ext'. intros j. rewrite E. destruct (next_scaled p _ g (om j) Bl Hg) as (_ & _ & ->). apply Bool.negb_involutive.
    - rewrite map_map. apply map_ext. intros j. rewrite E, chop_next_p. now destruct (next_scaled p _ g (om j) Bl Hg) as (-> & _).
    - rewrite <- set_nth_scaled. f_equal. apply map_slice_scaled. intros j _. rewrite E, chop_next_p. now destruct (next_scaled p _ g (om j) Bl Hg) as (_ & -> & _). }
  cbv zeta in K. split.
  - intros Y. apply yields_bind in Y as (out & Yo & Y). destruct (K out) as (K1 & K2 & K3). rewrite K1, K2, K3 in Y. apply yields_bind in Y as (c1 & Yc & Y). apply yields_ret in Y. eexists. split; [apply yields_bind; exists out; split; [exact Yo|]; apply yields_bind; exists c1; split; [exact Yc | apply yields_ret; reflexivity]|]. exact Y.
  - intros (b1 & Y & ->). apply yields_bind in Y as (out & Yo & Y). destruct (K out) as (K1 & K2 & K3). apply yields_bind in Y as (c1 & Yc & Y). apply yields_ret in Y. subst b1. cbn [b_c b_buf]. apply yields_bind. exists out. split; [exact Yo|]. rewrite K1, K2, K3. apply yields_bind. exists c1. split; [exact Yc | apply yields_ret; reflexivity].
Qed.
Lemma chop_read_back lr i s b1 : lr <> 0 -> yields (chop_mid t q (the_scale t q count lr (s_c s)) i s) b1 -> exists s', yields (chop_read t q count 1 0 lr i 1 s) s' /\ s_b s' = b1 /\ s_in s' = s_in s /\ s_out s' = s_out s.
Proof.
  intros L Y. unfold chop_mid in Y. cbv zeta in Y. apply yields_bind in Y as (out & Yo & Y). apply yields_bind in Y as (c1 & Yc & Y). apply yields_ret in Y. subst b1.
  exists {| s_b := {| b_c := c1; b_buf := set_nth 0 (map_slice (tp_columns t) i (fun j _ => fst (chop_next (cp_b q) (up_BL (tp_up t)) ((if cp_no_buffer q then 0 else if tp_columns t then at_ (nth 0 (b_buf (s_b s)) []) j i else at_ (nth 0 (b_buf (s_b s)) []) i j) +
      (if Bool.eqb (flag (s_in s) i) (flag (s_out s) j) then nth j out 0 * the_scale t q count lr (s_c s) else - (nth j out 0 * the_scale t q count lr (s_c s)))))) (nth 0 (b_buf (s_b s)) [])) (b_buf (s_b s)) |};
      s_in := s_in s; s_out := s_out s; s_cnt := if (i =? in_size t (s_c s) - 1)%nat then S (s_cnt s) else s_cnt s |}. split; [|auto].
  unfold chop_read. rewrite (proj2 (Reqb_false lr 0) L). cbn [Nat.eqb negb andb]. cbv zeta. apply yields_bind. exists out. split; [exact Yo|]. apply yields_bind. exists c1. split; [exact Yc|]. unfold flip_in. rewrite (proj2 (Rltb_false 0 (cp_in_prob q))) by lra. rewrite (proj2 (Rltb_false 0 (cp_out_prob q))) by lra.
  cbn [bindM]. destruct (_ =? _)%nat; apply yields_ret; reflexivity.
Qed.
Lemma transfer_same s cur b' : no_chopper s -> same_unit s -> (1 < length (k_parts (s_c s)))%nat -> (out_size t (s_c s) <= length (k_w (s_c s)))%nat -> (nth 0 (k_slices (s_c s)) 0 < in_size t (s_c s))%nat -> buffer_lr t (s_c s) 0 cur <> 0 ->
  yields (buf_transfer t p 1 0 cur (as_buffered g s)) b' <-> exists s', yields (chop_transfer t q count 1 0 cur s) s' /\ b' = as_buffered g s'.
Proof.
  intros Nc U Lp Lo Li L. assert (Br : forall b2, yields (buf_read t p 1 0 (buffer_lr t (s_c s) 0 cur) (nth 0 (k_slices (s_c s)) 0%nat) 1 (as_buffered g s)) b2 <-> yields (buf_move t p 1 0 (buffer_lr t (s_c s) 0 cur) (as_buffered g s) (nth 0 (k_slices (s_c s)) 0%nat)) b2).
  { intros b2. unfold buf_read. rewrite (proj2 (Reqb_false _ 0) L). cbn [as_buffered b_c Nat.eqb orb]. replace (length (k_parts (s_c s)) - 1 <=? 0)%nat with false by (symmetry; apply Nat.leb_gt; lia). replace (length (k_w (s_c s)) <? out_size t (s_c s))%nat with false by (symmetry; apply Nat.ltb_ge; lia).
    rewrite Bool.andb_false_r. cbn [seq foldMM]. split; [intros Y; apply yields_bind in Y as (z & Y & E); apply yields_ret in E; now subst | intros Y; apply yields_bind; eexists; split; [exact Y | apply yields_ret; reflexivity]]. }
  assert (Sc : the_scale t q count (buffer_lr t (s_c s) 0 cur) (s_c s) = Rabs (buffer_lr t (s_c s) 0 cur) / g) by apply U.
  unfold buf_transfer, transfer_g at 1. cbv zeta. cbn [as_buffered b_c]. rewrite Rn. cbn [bindM]. rewrite Rd. replace (Nat.min 1 (in_size t (s_c s))) with 1%nat by lia. replace (in_size t (s_c s) - nth 0 (k_slices (s_c s)) 0 <? 1)%nat with false by (symmetry; apply Nat.ltb_ge; lia). rewrite buffer_lr_eq. split.
  - intros Y. apply yields_bind in Y as (b2 & Y & E). apply yields_ret in E. apply Br in Y. apply (move_same s _ _ _ Nc U) in Y as (b1 & Y & E1). rewrite <- Sc in Y. destruct (chop_read_back _ _ _ _ L Y) as (s1 & Y1 & B1 & I1 & O1).
    exists (put_c s1 (with_slices (s_c s1) (set_nth 0 ((nth 0 (k_slices (s_c s)) 0 + 1) mod in_size t (s_c s))%nat (k_slices (s_c s1))))). split.
    + unfold chop_transfer, transfer_g. cbv zeta. rewrite Rn. cbn [bindM]. rewrite Rd. replace (Nat.min 1 (in_size t (s_c s))) with 1%nat by lia. replace (in_size t (s_c s) - nth 0 (k_slices (s_c s)) 0 <? 1)%nat with false by (symmetry; apply Nat.ltb_ge; lia). rewrite buffer_lr_eq. apply yields_bind. exists s1. split; [exact Y1 | apply yields_ret; reflexivity].
    + rewrite E, E1. unfold as_buffered, with_c. cbn [b_c b_buf s_c put_c s_b with_c]. rewrite <- B1. reflexivity.
  - intros (s' & Y & ->). destruct (chop_step t q count cur s s' Rn Rd Li Y) as (s1 & Y1 & ->). apply chop_read_mid in Y1 as (Ym & _); [|exact L]. rewrite Sc in Ym. apply yields_bind. exists (as_buffered g s1). split; [|apply yields_ret; reflexivity]. apply Br. apply (move_same s _ _ _ Nc U). exists (s_b s1). split; [exact Ym | reflexivity].
Qed.
End Same.
(** Without choppers and with the same unit of the buffer a chopped device does in any run of
    transfers exactly what a buffered device does (same crossbars, same buffer in these units). *)
Definition buf_run (t : tpar) (p : bpar) (curs : vec) (b b' : bstate) : Prop := yields (foldMM (fun b cur => buf_transfer t p 1 0 cur b) curs b) b'.
Theorem C77_same : forall t p q g count curs s, let c := s_c s in
  tp_random t = false -> tp_reads t = 1%nat -> (1 <= up_BL (tp_up t))%Z -> bp_mom (cp_b q) = bp_mom p -> bp_forget (cp_b q) = bp_forget p -> bp_step (cp_b q) = bp_step p ->
  cp_in_prob q <= 0 -> cp_out_prob q <= 0 -> cp_no_buffer q = false -> cp_correct q = false -> cp_auto_gran q <= 0 -> no_chopper s ->
  0 < g -> bp_thres p * m_dwmin (fst (part_at c 1)) = g -> (if Rltb 0 (cp_gran q) then cp_gran q else 1) * m_dwmin (fst (part_at c 0)) = g ->
  (1 < length (k_parts c))%nat -> (out_size t c <= length (k_w c))%nat -> (0 < in_size t c)%nat -> (nth 0 (k_slices c) 0 < in_size t c)%nat -> (forall c' cur, List.In cur curs -> k_gam c' = k_gam c -> buffer_lr t c' 0 cur <> 0) ->
  forall b', buf_run t p curs (as_buffered g s) b' <-> exists s', chop_run t q count curs s s' /\ b' = as_buffered g s'.
Proof.
  intros t p q g count curs s c Rn Rd Bl Em Ef Es Ip Op Nb Co Ag Nc Hg U1 U2 Lp Lo I0 Li Hl. subst c. unfold buf_run, chop_run. revert s Nc U1 U2 Lp Lo I0 Li Hl. induction curs as [|cur curs IH]; intros s Nc U1 U2 Lp Lo I0 Li Hl b'; cbn [foldMM].
  - split; [intros Y; apply yields_ret in Y; exists s; split; [apply yields_ret; reflexivity | exact Y] | intros (s' & Y & ->); apply yields_ret in Y; subst; apply yields_ret; reflexivity].
  - assert (Su : same_unit t p q g count s). { split; [exact U1|]. intros lr. unfold lr_scale, chop_gran. cbv zeta. rewrite Co, (proj2 (Rltb_false 0 (cp_auto_gran q))) by lra. now rewrite U2. }
    assert (L : buffer_lr t (s_c s) 0 cur <> 0) by (apply Hl; [now left | reflexivity]).
    assert (Nx : forall s1, yields (chop_transfer t q count 1 0 cur s) s1 -> forall b', yields (foldMM (fun b cur => buf_transfer t p 1 0 cur b) curs (as_buffered g s1)) b' <-> exists s', yields (foldMM (fun s cur => chop_transfer t q count 1 0 cur s) curs s1) s' /\ b' = as_buffered g s').
    { intros s1 Y1. pose proof (chop_transfer_rest _ _ _ _ _ _ _ _ Y1) as (_ & G1 & W1 & Ls1 & Lp1 & _ & _ & _ & M1). destruct (chop_step t q count cur s s1 Rn Rd Li Y1) as (s2 & Y2 & E2). pose proof (chop_read_rest _ _ _ _ _ _ _ _ _ _ Y2) as ((_ & _ & _ & _ & Sl & _) & _). apply chop_read_mid in Y2 as (_ & _ & _ & _ & _ & I2 & O2 & _); [|exact L].
      assert (Is : in_size t (s_c s1) = in_size t (s_c s)) by (unfold in_size; now rewrite W1). apply IH.
      - rewrite E2. split; cbn [put_c s_in s_out]; [rewrite I2 by exact Ip | rewrite O2 by (left; exact Op)]; apply Nc.
      - rewrite <- metas_nth, M1, metas_nth. exact U1.
      - rewrite <- metas_nth, M1, metas_nth. exact U2.
      - rewrite Lp1. exact Lp.
      - unfold out_size in *. rewrite W1. exact Lo.
      - rewrite Is. exact I0.
      - rewrite Is, E2. cbn [s_c put_c s_b with_c b_c k_slices with_slices]. rewrite set_nth_nth, Nat.eqb_refl. fold (s_c s2). rewrite Sl. cbn [andb]. destruct (0 <? _)%nat eqn:El; [apply Nat.mod_upper_bound; lia|]. rewrite nth_overflow; [exact I0 | apply Nat.ltb_ge in El; exact El].
      - intros c' cur' Ic Eg. apply Hl; [now right | congruence]. }
    split.
    + intros Y. apply yields_bind in Y as (b1 & Y1 & Y). apply (transfer_same t p q g count Rn Rd Bl Hg Em Ef Es Ip Op Nb s cur b1 Nc Su Lp Lo Li L) in Y1 as (s1 & Y1 & ->). apply (Nx s1 Y1) in Y as (s' & Y & ->). exists s'. split; [apply yields_bind; eauto | reflexivity].
    + intros (s' & Y & ->). apply yields_bind in Y as (s1 & Y1 & Y). apply yields_bind. exists (as_buffered g s1). split; [apply (transfer_same t p q g count Rn Rd Bl Hg Em Ef Es Ip Op Nb s cur _ Nc Su Lp Lo Li L); eauto | apply (Nx s1 Y1); eauto].
Qed.
Example C77_example : let t := tpar_ex [1; 1] false [1; 0] in let s := cstate_ex false in let p := bpar_ex false 0 in let q := cpar_ex 0 false in
  no_chopper s /\ bp_thres p * m_dwmin (fst (part_at (s_c s) 1)) = 1/10 /\ (if Rltb 0 (cp_gran q) then cp_gran q else 1) * m_dwmin (fst (part_at (s_c s) 0)) = 1/10 /\ (out_size t (s_c s) <= length (k_w (s_c s)))%nat /\ (0 < in_size t (s_c s))%nat /\
  exists s', chop_run t q 1 [1] s s'.
Proof.
  cbv zeta. split; [split; intros [|[|k]]; reflexivity|]. split; [cbn; lra|]. split; [cbn [cpar_ex cp_gran]; rewrite (proj2 (Rltb_true 0 1)) by lra; cbn; lra|]. split; [cbn; lia|]. split; [cbn; lia|].
  destruct (total_yields _ (chop_transfer_total (tpar_ex [1; 1] false [1; 0]) (cpar_ex 0 false) 1 1 (cstate_ex false) ltac:(intros; apply total_ret) eq_refl eq_refl ltac:(cbn; lia))) as (s' & Y). exists s'. unfold chop_run. cbn [foldMM]. apply yields_bind. exists s'. split; [exact Y | apply yields_ret; reflexivity].
Qed.
(** If the steps of the two crossbars differ the devices differ, contrary to the documentation: the
    chopped device has the buffer in units of the first, the buffered device in units of the second. *)
Definition mt1 : meta := {| m_dwmin := 1/5; m_std := 0; m_wn := 0; m_wn_on_set := false; m_rstd := 0 |}.
Definition uneven : cstate :=
  {| s_b := {| b_c := {| k_parts := [part1 (3/20); (mt1, snd (part1 0))]; k_gam := [0; 1]; k_w := [[0]]; k_idx := 0; k_cnt := 0; k_slices := [0%nat; 0%nat] |}; b_buf := [[[0]]] |}; s_in := [false]; s_out := [false]; s_cnt := 0 |}.
Theorem C77_uneven_refuted : let t := tpar_ex [1; 1] false [1; 0] in
  (exists b', yields (buf_transfer t (bpar_ex false 0) 1 0 1 (s_b uneven)) b') /\ (forall b', yields (buf_transfer t (bpar_ex false 0) 1 0 1 (s_b uneven)) b' -> buf_at b' 0 0 0 = 3/20) /\
  (exists s', yields (chop_transfer t (cpar_ex 0 false) 1 1 0 1 uneven) s') /\ (forall s', yields (chop_transfer t (cpar_ex 0 false) 1 1 0 1 uneven) s' -> cbuf_at s' 0 0 = 1/2).
Proof.
  cbv zeta. set (t := tpar_ex [1; 1] false [1; 0]).
  assert (E : buffer_lr t (s_c uneven) 0 1 = 1). { unfold buffer_lr. cbn [uneven s_c s_b b_c k_gam nth t tpar_ex tp_lrs tp_scale]. rewrite (proj2 (Rltb_false 0 0)) by lra. cbn [andb]. lra. }
  assert (L : buffer_lr t (s_c uneven) 0 1 <> 0) by (rewrite E; lra). assert (IR : ideal_read (tp_read t)) by (intros w x; reflexivity). assert (Hs : sensible up_ex) by (split; simpl; [lia | lra]).
  assert (Rc : rect 1 1 (s_c uneven)) by (repeat split; try lia; repeat constructor). assert (Bs : buf_sized 1 1 (s_b uneven)) by (split; [reflexivity | repeat constructor]).
  assert (Pw : part_weight (s_c uneven) 0 0 0 = 3/20) by reflexivity. assert (Ce : cell_at (d_cells (snd (part_at (s_c uneven) 1))) 0 0 = Some (cell0 0)) by reflexivity.
  split; [|split; [|split]].
  - apply total_yields. unfold buf_transfer, transfer_g. cbv zeta. cbn [t tp_random tpar_ex bindM]. rewrite buffer_lr_eq. change (bindM _ _) with (bindM (buf_read t (bpar_ex false 0) 1 0 (buffer_lr t (s_c uneven) 0 1) 0 1 (s_b uneven))
    (fun s1 => Ret (with_c s1 (with_slices (b_c s1) (set_nth 0 ((0 + 1) mod 1)%nat (k_slices (b_c s1))))))). apply total_bind; [|intros; apply total_ret]. rewrite E. unfold buf_read. rewrite (proj2 (Reqb_false 1 0)) by lra. cbn [orb Nat.eqb uneven s_b b_c k_parts length Nat.sub Nat.leb].
    cbn [k_w out_size t tpar_ex tp_columns Nat.ltb Nat.leb length andb]. apply total_foldMM. intros b a Ia. destruct Ia as [<- | []].
    unfold buf_move. cbv zeta. apply total_bind; [cbn; apply total_ret|]. intros out _. apply total_bind; [|intros; apply total_ret]. destruct (existsb _ _); [|apply total_ret]. unfold write_slice, upd_part. apply total_bind; [|intros; apply total_ret]. apply upd_nth_total. intros q. apply total_bind; [|intros; apply total_ret]. destruct (tp_columns t); apply update_vector_total.
  - intros b' Y. destruct (C72_content t (bpar_ex false 0) up_ex 0 1 1 1 (s_b uneven) b' IR eq_refl Hs ltac:(cbn; lra) L eq_refl Rc Bs ltac:(cbn; lia) ltac:(cbn; lra) ltac:(cbn; lia) Y) as (_ & _ & H). destruct (H 0%nat 0%nat _ Ce) as (c' & _ & H1 & _).
    destruct H1 as (k & ((_ & K & _ & _) & Z & _) & _); [exists 0%nat; split; [cbn; lia | reflexivity]|]. change (b_c (s_b uneven)) with (s_c uneven) in *. rewrite E, Pw in *. change (buf_at (s_b uneven) 0 0 0) with 0 in *. change (bp_thres (bpar_ex false 0)) with 1 in *. change (m_dwmin (fst (part_at (s_c uneven) 1))) with (1/5) in *.
    assert (k = 0%Z) as ->. { assert (Q : Rabs ((0 + Rabs 1 * (3/20)) / (1 * (1/5))) < 1) by (rewrite (Rabs_right 1), Rabs_right; lra). destruct (Z.eq_dec k 0) as [Z0 | Z0]; [exact Z0|]. exfalso. assert (1 <= Rabs (IZR k)) by (rewrite Rabs_Zabs; apply IZR_le; lia). lra. }
    rewrite Z by reflexivity. rewrite (Rabs_right 1); lra.
  - apply total_yields. apply chop_transfer_total; [intros; apply total_ret | reflexivity | reflexivity | cbn; lia].
  - intros s' Y. destruct (C74_content t (cpar_ex 0 false) up_ex 1 1 1 1 uneven s' IR eq_refl Hs ltac:(cbn; lra) L eq_refl eq_refl Rc Bs ltac:(cbn; lia) ltac:(cbn; lra) ltac:(cbn; lia) Y) as (_ & _ & H). destruct (H 0%nat 0%nat _ Ce) as (x' & _ & H1). change (slice_of t 0 0 =? nth 0 (k_slices (s_c uneven)) 0)%nat with true in H1. cbv iota in H1.
    destruct H1 as (k & (_ & H1) & _). rewrite E, Pw in H1. change (cbuf_at uneven 0 0) with 0 in H1. change (sign_at t uneven 0 0) with 1 in H1. change (cp_no_buffer (cpar_ex 0 false)) with false in H1. cbv iota in H1.
    assert (Fl : final_transfer_lr (cpar_ex 0 false) (in_size t (s_c uneven)) (m_dwmin (fst (part_at (s_c uneven) 0))) (m_dwmin (fst (part_at (s_c uneven) 1))) 1 1 = 10).
    { unfold final_transfer_lr. cbv zeta. cbn [cpar_ex cp_gran cp_auto_gran cp_correct]. rewrite (proj2 (Rltb_true 0 1)), (proj2 (Rltb_false 0 0)), (Rabs_right 1) by lra. change (m_dwmin (fst (part_at (s_c uneven) 0))) with (1/10). field. }
    rewrite Fl in H1. replace (0 + 1 * 10 * (3/20)) with (3/2) in H1 by lra. destruct H1 as ((K1 & K2 & K3 & K4) & B); [rewrite Rabs_right; lra|]. change (up_BL up_ex) with 1%Z in *. change (bp_forget (cp_b (cpar_ex 0 false))) with false in B. cbv iota in B.
    assert (k = 1%Z) as ->. { assert (k <> 0)%Z by (intros ->; specialize (K4 ltac:(lia)); rewrite Rabs_R0, Rabs_right in K4; lra). assert (k <> -1)%Z by (intros ->; lra). lia. }
    rewrite B. change (bp_mom (cp_b (cpar_ex 0 false))) with 0. rewrite Rmin_left, Rmax_left by lra. lra.
Qed.
(** The automatic granularity also counts if gradient magnitudes are corrected, contrary to the
    documentation. *)
Theorem C77_auto_granularity_refuted : exists p, cp_correct p = true /\ 0 < cp_auto_gran p /\ forall t c, final_transfer_lr p t c c 1 1 = INR t / 1000 * final_transfer_lr {| cp_b := cp_b p; cp_in_prob := cp_in_prob p; cp_in_random := cp_in_random p; cp_out_prob := cp_out_prob p; cp_correct := true; cp_auto_gran := 0; cp_gran := cp_gran p; cp_no_buffer := cp_no_buffer p; cp_every := cp_every p; cp_states := cp_states p |} t c c 1 1.
Proof.
  exists {| cp_b := bpar_ex false 0; cp_in_prob := 0; cp_in_random := false; cp_out_prob := 0; cp_correct := true; cp_auto_gran := 1000; cp_gran := 1; cp_no_buffer := false; cp_every := 1; cp_states := [] |}. split; [reflexivity|]. split; [cbn; lra|]. intros n c. unfold final_transfer_lr. cbv zeta. cbn [cp_b cp_correct cp_auto_gran cp_gran cp_every].
  rewrite (proj2 (Rltb_true 0 1)), (proj2 (Rltb_true 0 1000)), (proj2 (Rltb_false 0 0)), (Rabs_right 1) by lra. rewrite !Rmult_1_r, !Rmult_1_l. unfold Rdiv. rewrite !Rinv_mult, !Rinv_1, !Rinv_inv. ring.
Qed.

Print Assumptions C77_same.
Print Assumptions C77_uneven_refuted.
Print Assumptions C77_auto_granularity_refuted.
