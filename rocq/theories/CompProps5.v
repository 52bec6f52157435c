(** * Compound devices: schedule and content of transfers (C70, C71) *)
From Verif Require Import Prelude Rand DevModel DevSpec DevProofs PulseModel PulseSpec PulseProofs PulseProps CompModel CompSpec CompProofs CompProofs2 CompProofs3 CompProofs4 CompProps CompProps2 CompProps3 DevProps DevProps2.

Definition updates_with (mb : nat) (o : cop) : Prop := match o with CUpdate _ _ m => m = mb | _ => False end.
(** number of reads of a transfer *)
Definition n_reads (t : tpar) (s : comp) : nat := Nat.min (tp_reads t) (in_size t s).
Lemma update_sized t ds g n cs lr mb s s' : sized ds g n s -> yields (update (KTransfer t) cs lr mb s) s' -> sized ds g n s'.
Proof.
  intros S Y. cbn [update] in Y. apply yields_bind in Y as (s1 & Y1 & Y). refine (proj1 (transfer_finish_good _ _ _ _ _ _ _ _ _ Y)). refine (yields_foldMM_inv _ (sized ds g n) _ _ _ _ S Y1). intros; eapply transfer_call_sized; eauto.
Qed.
Lemma update_slices t ds g n cs lr mb s s' j : tp_random t = false -> length (k_slices s) = n -> (j < n)%nat -> sized ds g n s ->
  yields (update (KTransfer t) cs lr mb s) s' -> k_cnt s' = S (k_cnt s) /\ length (k_slices s') = n /\
  nth j (k_slices s') 0%nat = if due t mb (S (k_cnt s)) j then ((nth j (k_slices s) 0%nat + n_reads t s) mod in_size t s)%nat else nth j (k_slices s) 0%nat.
Proof.
  intros Rn Ls Lj Sz Y. cbn [update] in Y. apply yields_bind in Y as (s1 & Y1 & Y). destruct (transfer_calls_rest _ _ _ Y1) as (C1 & W1 & S1 & L1 & _).
  unfold transfer_finish in Y. cbv zeta in Y. apply yields_bind in Y as (s2 & Y2 & Y). apply yields_ret in Y. pose proof Sz as (_ & Np & _).
  apply (finish_fold t lr mb (length (k_parts s1)) Rn) in Y2; [|apply seq_NoDup | intros a Ia; apply in_seq in Ia; cbn [k_slices with_idx]; rewrite S1; lia].
  destruct Y2 as (C2 & W2 & L2 & P2 & N2). cbn [k_cnt k_w k_slices k_parts with_idx] in *. subst s'. unfold show.
  assert (H : k_cnt s2 = S (k_cnt s) /\ length (k_slices s2) = n /\ nth j (k_slices s2) 0%nat = if due t mb (S (k_cnt s)) j then ((nth j (k_slices s) 0%nat + n_reads t s) mod in_size t s)%nat else nth j (k_slices s) 0%nat).
  { split; [congruence|]. split; [congruence|]. rewrite N2. assert (Ex : existsb (Nat.eqb j) (seq 0 (length (k_parts s1))) = true) by (apply existsb_exists; exists j; split; [apply in_seq; lia | apply Nat.eqb_refl]). rewrite Ex. cbn [andb]. rewrite C1, S1. unfold n_reads.
    replace (in_size t (with_idx s1 0 (S (k_cnt s)))) with (in_size t s) by (symmetry; apply in_size_w; cbn [k_w with_idx]; now rewrite W1). reflexivity. }
  destruct (hidden _); exact H.
Qed.
(** In any history of updates the crossbars are read every [transfer_every] updates, and the
    position of the next read advances by the number of reads, cyclically.  Counted from [c] to
    [c + n] updates, crossbar [j] is transferred [(c + n) / every - c / every] times. *)
Theorem C70_schedule : forall t mb os s s' j, tp_random t = false -> well_formed (KTransfer t) s -> length (k_slices s) = length (k_parts s) -> (j < length (k_parts s))%nat ->
  (nth j (k_slices s) 0 < in_size t s)%nat -> Forall (updates_with mb) os -> chistory (KTransfer t) s os s' ->
  k_cnt s' = (k_cnt s + length os)%nat /\
  nth j (k_slices s') 0%nat =
    let every := transfer_every t j mb in
    if (every =? 0)%nat then nth j (k_slices s) 0%nat
    else ((nth j (k_slices s) 0 + n_reads t s * ((k_cnt s + length os) / every - k_cnt s / every)) mod in_size t s)%nat.
Proof.
  intros t mb os s s' j Rn W Ls Lj Li Fo H. pose proof (wf_sized _ _ W) as Sz. set (ds := dims (k_w s)) in *. set (g := k_gam s) in *. set (n := length (k_parts s)) in *. clearbody g. clear W.
  assert (Hd : dims (k_w s) = ds) by reflexivity. clearbody ds n. revert s Sz Hd Ls Lj Li H. cbv zeta. set (e := transfer_every t j mb).
  induction os as [|o os IH]; intros s Sz Hd Ls Lj Li H; unfold chistory in H; cbn [foldMM] in H.
  - apply yields_ret in H. subst s'. cbn [length]. rewrite Nat.add_0_r, Nat.sub_diag, Nat.mul_0_r, Nat.add_0_r, Nat.mod_small by auto. split; auto. destruct (e =? 0)%nat; auto.
  - apply yields_bind in H as (s1 & Y & H). pose proof (Forall_inv Fo) as Ho. pose proof (Forall_inv_tail Fo) as Fo'. destruct o as [cs lr m| | | | | | |]; try contradiction. cbn in Ho. subst m. cbn [cdo] in Y.
    destruct (update_slices t _ g _ cs lr mb s s1 j Rn Ls Lj Sz Y) as (C1 & L1 & N1). pose proof (update_sized t _ _ _ _ _ _ _ _ Sz Y) as Sz1. pose proof Sz1 as (_ & _ & _ & _ & _ & D1).
    assert (Is : in_size t s1 = in_size t s) by (apply in_size_w; congruence). assert (Ir : n_reads t s1 = n_reads t s) by (unfold n_reads; now rewrite Is).
    destruct (IH Fo' s1 Sz1 D1 L1 Lj) as [C2 N2]; [rewrite N1, Is; destruct (due _ _ _ _); [apply Nat.mod_upper_bound; lia | auto] | exact H |].
    cbn [length]. rewrite C2, C1. split; [lia|]. rewrite N2, N1, C1, Is, Ir. unfold due. fold e. destruct (Nat.eqb_spec e 0) as [E0 | E0]; [rewrite E0; reflexivity|].
    replace (0 <? e)%nat with true by (symmetry; apply Nat.ltb_lt; lia). cbn [andb]. replace (k_cnt s + S (length os))%nat with (S (k_cnt s) + length os)%nat by lia.
    set (q := ((S (k_cnt s) + length os) / e)%nat). assert (Mono : (S (k_cnt s) / e <= q)%nat) by (apply Nat.div_le_mono; lia).
    destruct (Nat.eqb_spec (S (k_cnt s) mod e) 0) as [Em | Em].
    + assert (Ed : (S (k_cnt s) / e = S (k_cnt s / e))%nat).
      { apply Nat.div_exact in Em; auto. set (z := (S (k_cnt s) / e)%nat) in *. assert (Pz : (0 < z)%nat) by (destruct z; lia). replace (k_cnt s) with ((z - 1) * e + (e - 1))%nat by nia. rewrite Nat.div_add_l by auto. rewrite Nat.div_small by lia. lia. }
      rewrite Ed in *. rewrite Nat.add_mod_idemp_l by lia. f_equal. nia.
    + assert (Ed : (S (k_cnt s) / e = k_cnt s / e)%nat).
      { pose proof (Nat.div_mod (k_cnt s) e E0) as D0. pose proof (Nat.mod_upper_bound (k_cnt s) e E0). symmetry. apply (Nat.div_unique _ _ _ (S (k_cnt s mod e))); [|nia].
        destruct (Nat.eq_dec (S (k_cnt s mod e)) e) as [E1|]; [|lia]. exfalso. apply Em. replace (S (k_cnt s)) with ((S (k_cnt s / e)) * e)%nat by nia. now apply Nat.mod_mul. }
      now rewrite Ed.
Qed.
(** The default cycles grow geometrically; the last crossbar is not read *)
Theorem C70_default_cycles : forall u n xs dsz gv hid ev lrs rd k, tu_every_vec u = [] -> init_transfer u n xs dsz = Ok (gv, hid, ev, lrs, rd) -> (k < n)%nat ->
  nth k ev 0 = if (tu_no_self u && (k =? n - 1)%nat)%bool then 0 else tu_every u * (INR (if tu_columns u then dsz else xs) / INR rd) ^ k.
Proof.
  intros u n xs dsz gv hid ev lrs rd k Ev H Lk. unfold init_transfer in H. destruct (n <? 2)%nat; [discriminate|].
  match type of H with bind ?m _ = _ => destruct m as [[gv0 g0]|] end; cbn [bind] in H; [|discriminate]. destruct (negb _); [discriminate|]. rewrite Ev in H. destruct (negb _); [discriminate|]. match type of H with (if ?b then _ else _) = _ => destruct b end; [discriminate|].
  injection H as _ _ He _ Er. rewrite Er in He. set (f := INR (if tu_columns u then dsz else xs) / INR rd) in *.
  assert (Ch : forall m e j, (j < m)%nat -> nth j (every_chain m e f) 0 = e * f ^ j).
  { induction m as [|m IH]; intros e j Lj; [lia|]. cbn [every_chain]. destruct j as [|j]; cbn [nth]; [cbn; lra|]. rewrite IH by lia. cbn [pow]. lra. }
  assert (Ln : forall m e, length (every_chain m e f) = m) by (induction m as [|m IH]; intros e; cbn [every_chain length]; auto).
  rewrite <- He. destruct (tu_no_self u); cbn [andb]; [|now apply Ch]. rewrite set_nth_nth, Ln. replace (n - 1 <? n)%nat with true by (symmetry; apply Nat.ltb_lt; lia). rewrite Bool.andb_true_r. destruct (k =? n - 1)%nat; auto.
Qed.
(** ... but not by the number of slices: a crossbar with 2 columns and 8 rows that transfers one
    column per transfer needs two transfers for all of them, but the next one waits for eight
    (documented is [x_size / n_reads_per_transfer]) *)
Theorem C70_documented_cycles_refuted : exists u gv hid ev lrs rd, tu_columns u = true /\ tu_reads u = 1%nat /\ tu_every u = 1 /\ init_transfer u 3 2 8 = Ok (gv, hid, ev, lrs, rd) /\ nth 1 ev 0 = 8 /\ nth 1 ev 0 <> 1 * (2 / 1).
Proof.
  exists {| tu_gamma := 0; tu_gamma_vec := []; tu_every := 1; tu_every_vec := []; tu_reads := 1; tu_columns := true; tu_no_self := true; tu_lr := 1; tu_lr_vec := []; tu_reset := 0 |}.
  eexists. eexists. eexists. eexists. eexists. split; [reflexivity|]. split; [reflexivity|]. split; [reflexivity|]. unfold init_transfer. cbn [tu_gamma_vec tu_columns tu_gamma tu_lr_vec tu_lr tu_reads tu_every_vec tu_every tu_no_self tu_reset Nat.ltb Nat.leb bind length repeat Nat.eqb negb every_chain set_nth].
  assert (E : Rltb 0 0 = false) by (apply Rltb_false; lra). rewrite E. cbn [andb]. split; [reflexivity|]. cbn [nth set_nth Nat.sub]. split; cbn; lra.
Qed.

(** *** C71 *)
(** slice [k] is one of the [n] slices from [start] on, cyclically *)
Definition selected (start n ins k : nat) : Prop := exists a, (a < n)%nat /\ k = ((start + a) mod ins)%nat.
Definition in_range (t : tpar) (s : comp) (i j : nat) : Prop := (slice_of t i j < in_size t s)%nat.
Lemma selected_split start n ins k : (start < ins)%nat -> (n <= ins)%nat -> (k < ins)%nat ->
  selected start n ins k <-> if (ins - start <? n)%nat then (start <= k \/ k < n - (ins - start))%nat else (start <= k < start + n)%nat.
Proof.
  intros Hs Hn Hk. unfold selected. split.
  - intros (a & La & E). destruct (Nat.ltb_spec (ins - start) n) as [H | H].
    + destruct (Nat.ltb_spec (start + a) ins) as [G | G]; [rewrite Nat.mod_small in E by auto; lia|]. right. rewrite <- (Nat.mod_add (start + a) 0 ins) in E by lia. replace (start + a)%nat with ((start + a - ins) + 1 * ins)%nat in E by lia. rewrite Nat.mul_0_l, Nat.add_0_r, Nat.mod_add in E by lia. rewrite Nat.mod_small in E by lia. lia.
    + rewrite Nat.mod_small in E by lia. lia.
  - destruct (Nat.ltb_spec (ins - start) n) as [H | H].
    + intros [G | G].
      * exists (k - start)%nat. split; [lia|]. replace (start + (k - start))%nat with k by lia. now rewrite Nat.mod_small.
      * exists (k + (ins - start))%nat. split; [lia|]. replace (start + (k + (ins - start)))%nat with (k + 1 * ins)%nat by lia. rewrite Nat.mod_add by lia. now rewrite Nat.mod_small.
    + intros G. exists (k - start)%nat. split; [lia|]. replace (start + (k - start))%nat with k by lia. now rewrite Nat.mod_small.
Qed.
(** A transfer without reset and with ideal reads: only the next crossbar changes, and there
    only the cross points of the selected columns (rows), which get at most the number of pulses
    of one update, towards the weight of the crossbar that was read times the transfer learning
    rate. *)
Theorem C71_content : forall t u to from cur n m s s' i j c, let lr := transfer_lr t from cur in let ins := in_size t s in let start := nth from (k_slices s) 0%nat in
  ideal_read (tp_read t) -> tp_up t = init_upar u -> sensible u -> stochastic u \/ 0 < lr -> lr <> 0 -> to <> from -> no_reset t -> tp_random t = false ->
  rect n m s -> (to < length (k_parts s))%nat -> (from < length (k_parts s))%nat -> 0 < m_dwmin (fst (part_at s to)) -> (start < ins)%nat ->
  yields (transfer t to from cur s) s' ->
  (forall k, k <> to -> part_at s' k = part_at s k) /\
  (cell_at (d_cells (snd (part_at s to))) i j = Some c -> exists c', cell_at (d_cells (snd (part_at s' to))) i j = Some c' /\
    (selected start (n_reads t s) ins (slice_of t i j) -> pulsed_towards u (fst (part_at s to)) lr (part_weight s from i j) c c') /\
    (~ selected start (n_reads t s) ins (slice_of t i j) -> c' = c)).
Proof.
  intros t u to from cur n m s s' i j c lr ins start IR U Hs Ht L Ne NR Rn Rc Lt Lf Hg Hst Y. split.
  { apply transfer_slices in Y as (_ & _ & _ & _ & _ & _ & _ & _ & O). intros k Nk. apply O; auto. destruct NR; auto. }
  intros E. unfold transfer in Y. cbv zeta in Y. rewrite Rn in Y. cbn [bindM] in Y. fold ins lr start in Y. apply yields_bind in Y as (s1 & Y & Es). apply yields_ret in Es.
  fold (n_reads t s) in *. change (Nat.min (tp_reads t) ins) with (n_reads t s) in *. set (nr := n_reads t s) in *. assert (Hnr : (nr <= ins)%nat) by (unfold nr, n_reads; fold ins; lia).
  assert (Hk : (slice_of t i j < ins)%nat).
  { unfold ins. rewrite (rect_in n m t s Rc). unfold slice_of. destruct (rect_vis n m s to Rc Lt) as [Rv Lv]. destruct Rc as (_ & _ & F). rewrite Forall_forall in F. specialize (F (part_at s to) (nth_In _ _ Lt)). unfold pdims in F.
    destruct (repeat_dims_cells n m (d_cells (snd (part_at s to))) i j c F E) as [Li Lj]. destruct (tp_columns t); auto. }
  assert (H : exists c', cell_at (d_cells (snd (part_at s1 to))) i j = Some c' /\
     if (if (ins - start <? nr)%nat then (start <=? slice_of t i j) || (slice_of t i j <? nr - (ins - start)) else (start <=? slice_of t i j) && (slice_of t i j <? start + nr))%nat%bool
     then pulsed_towards u (fst (part_at s to)) lr (part_weight s from i j) c c' else c' = c).
  { destruct (Nat.ltb_spec (ins - start) nr) as [Hr | Hr].
    - apply yields_bind in Y as (s0 & Y0 & Y). rewrite read_update_moves in Y0, Y by auto. pose proof (moves_rest _ _ _ _ _ _ _ _ _ Y0) as [(_ & W0 & _ & _ & _ & Lp) O].
      assert (B0 : forall a, List.In a (seq start (ins - start)) -> (a < in_size t s)%nat) by (intros a Ia; apply in_seq in Ia; fold ins; lia).
      destruct (moves_cell t u to from lr _ _ n m IR U Hs Ht L Ne NR _ _ _ i j c (seq_NoDup _ _) B0 Rc Lt Lf Hg Y0 E) as (c0 & E0 & M0 & R0 & H0).
      assert (Is : in_size t s0 = ins) by (apply in_size_w; now rewrite W0).
      assert (B1 : forall a, List.In a (seq 0 (nr - (ins - start))) -> (a < in_size t s0)%nat) by (intros a Ia; apply in_seq in Ia; rewrite Is; lia).
      assert (Lt0 : (to < length (k_parts s0))%nat) by (rewrite Lp; exact Lt). assert (Lf0 : (from < length (k_parts s0))%nat) by (rewrite Lp; exact Lf). assert (Hg0 : 0 < m_dwmin (fst (part_at s0 to))) by (rewrite M0; exact Hg).
      destruct (moves_cell t u to from lr _ _ n m IR U Hs Ht L Ne NR _ _ _ i j c0 (seq_NoDup _ _) B1 R0 Lt0 Lf0 Hg0 Y E0) as (c' & E' & M' & R' & H').
      exists c'. split; [exact E'|]. assert (Pf : part_weight s0 from i j = part_weight s from i j). { unfold part_weight. change (nth from (k_parts s0) no_part) with (part_at s0 from). rewrite O; auto. destruct NR; auto. }
      rewrite Pf, M0 in H'. rewrite existsb_seq in H0, H'. cbn [Nat.leb plus] in H'. cbn [andb] in H'.
      replace ((slice_of t i j <? start + (ins - start))%nat) with true in H0 by (symmetry; apply Nat.ltb_lt; lia). rewrite Bool.andb_true_r in H0.
      destruct (Nat.leb_spec start (slice_of t i j)) as [G | G]; cbn [orb].
      + replace (slice_of t i j <? nr - (ins - start))%nat with false in H' by (symmetry; apply Nat.ltb_ge; lia). now subst c'.
      + subst c0. exact H'.
    - rewrite read_update_moves in Y by auto.
      assert (B0 : forall a, List.In a (seq start nr) -> (a < in_size t s)%nat) by (intros a Ia; apply in_seq in Ia; fold ins; lia).
      destruct (moves_cell t u to from lr _ _ n m IR U Hs Ht L Ne NR _ _ _ i j c (seq_NoDup _ _) B0 Rc Lt Lf Hg Y E) as (c0 & E0 & M0 & R0 & H0).
      exists c0. split; auto. rewrite existsb_seq in H0. exact H0. }
  destruct H as (c' & E' & H). exists c'. subst s'. split; [exact E'|]. pose proof (selected_split start nr ins (slice_of t i j) Hst Hnr Hk) as SS.
  destruct (ins - start <? nr)%nat.
  - destruct (Nat.leb_spec start (slice_of t i j)), (Nat.ltb_spec (slice_of t i j) (nr - (ins - start))); cbn [orb] in H; split; intros G; auto; exfalso; [apply G, SS; lia | apply G, SS; lia | apply G, SS; lia | apply SS in G; lia].
  - destruct (Nat.leb_spec start (slice_of t i j)), (Nat.ltb_spec (slice_of t i j) (start + nr)); cbn [andb] in H; split; intros G; auto; exfalso; [apply G, SS; lia | apply SS in G; lia | apply SS in G; lia | apply SS in G; lia].
Qed.
(** nothing is transferred with learning rate zero, nor from the last crossbar to itself, but the
    position advances *)
Theorem C71_idle : forall t to from cur s s', transfer_lr t from cur = 0 \/ to = from -> yields (transfer t to from cur s) s' -> k_parts s' = k_parts s /\
  (tp_random t = false -> k_slices s' = set_nth from ((nth from (k_slices s) 0 + n_reads t s) mod in_size t s)%nat (k_slices s)).
Proof.
  intros t to from cur s s' H Y. split.
  - unfold transfer in Y. cbv zeta in Y. apply yields_bind in Y as (i0 & _ & Y). apply yields_bind in Y as (s1 & Y & E). apply yields_ret in E. subst s'. cbn [k_parts with_slices].
    assert (Z : forall a b x x', yields (read_update t to from (transfer_lr t from cur) a b x) x' -> x' = x).
    { intros a b x x' Yx. unfold read_update in Yx. assert (Eb : (Reqb (transfer_lr t from cur) 0 || (to =? from)%nat)%bool = true) by (destruct H as [-> | ->]; [rewrite (proj2 (Reqb_true 0 0) eq_refl); reflexivity | rewrite Nat.eqb_refl; apply Bool.orb_true_r]). rewrite Eb in Yx. now apply yields_ret in Yx. }
    destruct (_ <? _)%nat; [apply yields_bind in Y as (a & Ya & Y); apply Z in Ya; apply Z in Y; now subst | apply Z in Y; now subst].
  - intros Rn. apply transfer_slices in Y as (i0 & I0 & Sl & _). rewrite Sl, I0 by auto. reflexivity.
Qed.
Lemma expect_upd_nth {A} N G (f : A -> M A) (d : A) : forall k l F, (k < length l)%nat -> expect N G (upd_nth k f l) F = expect N G (f (nth k l d)) (fun a => F (set_nth k a l)).
Proof.
  induction k as [|k IH]; intros [|a l] F L; cbn [length] in L; try lia; cbn [upd_nth nth set_nth].
  - rewrite expect_bind. apply expect_ext. intros b _. reflexivity.
  - rewrite expect_bind. etransitivity; [apply (IH l (fun r => expect N G (Ret (a :: r)) F)); lia|]. apply expect_ext. intros b _. reflexivity.
Qed.
Lemma maxabs_le v b : 0 <= b -> (forall k, Rabs (nth k v 0) <= b) -> maxabs v <= b.
Proof.
  intros B. induction v as [|x v IH]; intros H; [cbn; lra|]. change (maxabs (x :: v)) with (Rmax (Rabs x) (maxabs v)). apply Rmax_lub; [exact (H 0%nat) | apply IH; intros k; exact (H (S k))].
Qed.
(** ... so on average (constant steps away from the bounds, one read per transfer, update
    management) the next crossbar gets the weight read times the learning rate, up to the
    resolution of the random numbers. *)
Theorem C71_average : forall N G t u to from cur n m s i j c, let lr := transfer_lr t from cur in let mt := fst (part_at s to) in let start := nth from (k_slices s) 0%nat in
  (0 < N)%nat -> G <> [] -> ideal_read (tp_read t) -> tp_up t = init_upar u -> sensible u -> stochastic u -> up_res u <= 0 -> up_um u = true \/ up_ublm u = true -> up_gs u = 1 ->
  lr <> 0 -> to <> from -> no_reset t -> tp_random t = false -> tp_reads t = 1%nat -> rect n m s -> (to < length (k_parts s))%nat -> (from < length (k_parts s))%nat -> (start < in_size t s)%nat ->
  0 < m_dwmin mt -> m_std mt = 0 -> fits u lr (m_dwmin mt) -> (forall a b, Rabs lr * Rabs (part_weight s from a b) <= m_dwmin mt * IZR (up_BL u)) ->
  cell_at (d_cells (snd (part_at s to))) i j = Some c -> ideal_cell mt c -> room mt c (IZR (up_BL u) * m_dwmin mt) ->
  Rabs (expect N G (transfer t to from cur s) (fun s' => weight_at mt (snd (part_at s' to)) i j) -
        (stored mt c + lr * (if (slice_of t i j =? start)%nat then part_weight s from i j else 0))) <= 2 * IZR (up_BL u) * m_dwmin mt / INR (S N).
Proof.
  intros N G t u to from cur n m s i j c lr mt start HN HG IR U Hs Ht Hr Hm H1 L Ne NR Rn R1 Rc Lt Lf Hst Hg Hd Hf Hx E Ic Rm.
  unfold transfer. cbv zeta. rewrite Rn. cbn [bindM]. fold start lr. rewrite R1. replace (Nat.min 1 (in_size t s)) with 1%nat by lia. replace (in_size t s - start <? 1)%nat with false by (symmetry; apply Nat.ltb_ge; lia).
  rewrite read_update_moves by auto. cbn [seq foldMM]. rewrite expect_bind. cbn [expect]. rewrite expect_bind. cbn [expect].
  unfold move. cbv zeta. rewrite expect_bind. unfold read_slice. cbv zeta. rewrite IR. cbn [bindM expect]. change (nth from (k_parts s) no_part) with (part_at s from).
  set (x := unit_vec (in_size t s) start). set (o := map Ropp _). rewrite expect_bind.
  rewrite (expect_ext _ _ _ _ (fun _ => expect N G (write_slice t to lr x o s) (fun a => weight_at mt (snd (part_at a to)) i j))).
  2:{ intros v Yv. unfold unif in Yv. apply yields_unif in Yv as (v' & Hv & Yv). apply yields_ret in Yv. subst v'. rewrite expect_bind.
      assert (Eb : (Rltb v (tp_reset t) && tp_columns t)%bool = false). { destruct NR as [NR | NR]; [rewrite (proj2 (Rltb_false v (tp_reset t))) by lra; reflexivity | rewrite NR; apply Bool.andb_false_r]. }
      rewrite Eb. cbn [expect]. apply expect_ext. intros a _. reflexivity. }
  rewrite expect_const; [|exact HG | unfold unif; apply total_unif; intros; apply total_ret].
  unfold write_slice, upd_part. rewrite expect_bind. cbn [expect]. rewrite (expect_upd_nth _ _ _ no_part) by exact Lt. change (nth to (k_parts s) no_part) with (part_at s to). rewrite expect_bind. cbn [expect].
  destruct (rect_vis n m s from Rc Lf) as [Rv Lv]. pose proof Rc as (Pm & _ & _). pose proof (rect_in n m t s Rc) as Is. unfold x in *. clear x. rewrite Is in *.
  assert (Wt : forall (dv : dev), weight_at mt (snd (part_at (with_parts s (set_nth to (fst (part_at s to), dv) (k_parts s))) to)) i j = weight_at mt dv i j).
  { intros dv. unfold part_at at 1. cbn [k_parts with_parts]. rewrite set_nth_nth, Nat.eqb_refl, (proj2 (Nat.ltb_lt _ _) Lt). reflexivity. }
  rewrite (expect_ext _ _ _ _ (fun dv => weight_at mt dv i j)) by (intros dv _; apply Wt).
  assert (Batch : forall xx dd, expect N G (update_vector (init_upar u) mt lr xx dd (snd (part_at s to))) (fun dv => weight_at mt dv i j) = expect N G (update_batch (init_upar u) mt lr [(xx, dd)] (snd (part_at s to))) (fun dv => weight_at mt dv i j)).
  { intros xx dd. unfold update_batch. cbn [foldMM fst snd]. rewrite expect_bind. apply expect_ext. intros a _. reflexivity. }
  assert (Wb : forall k, Rabs (nth k o 0) <= m_dwmin mt * IZR (up_BL u) / Rabs lr /\ nth k o 0 = - if tp_columns t then part_weight s from k start else part_weight s from start k).
  { intros k. assert (Ek : nth k o 0 = - if tp_columns t then part_weight s from k start else part_weight s from start k).
    { unfold o, part_weight. change (nth from (k_parts s) no_part) with (part_at s from). rewrite nth_map_Ropp. f_equal. rewrite ?Is. destruct (tp_columns t); [now apply read_unit|]. pose proof (transposed_rows (vis (snd (part_at s from)))) as Tr. rewrite Lv in Tr. rewrite read_unit by exact Tr.
      apply (at_transposed _ n); auto. eapply Nat.lt_le_trans; [exact Pm | apply Nat.eq_le_incl; symmetry; exact Lv]. }
    split; auto. rewrite Ek, Rabs_Ropp. apply (Rmult_le_reg_l (Rabs lr)); [now apply Rabs_pos_lt|]. replace (Rabs lr * (m_dwmin mt * IZR (up_BL u) / Rabs lr)) with (m_dwmin mt * IZR (up_BL u)) by (field; now apply Rabs_no_R0). destruct (tp_columns t); apply Hx. }
  assert (Bl : 1 <= IZR (up_BL u)) by (destruct Hs as [Hb _]; now apply IZR_le in Hb).
  assert (Mo : maxabs o <= m_dwmin mt * IZR (up_BL u) / Rabs lr). { apply maxabs_le; [|apply Wb]. apply Rmult_le_pos; [apply Rmult_le_pos; lra|]. left. apply Rinv_0_lt_compat. now apply Rabs_pos_lt. }
  assert (Mu : forall q, maxabs (unit_vec q start) <= 1). { intros q. apply maxabs_le; [lra|]. intros k. rewrite unit_nth. match goal with |- Rabs (if ?b then _ else _) <= _ => destruct b end; [rewrite Rabs_R1 | rewrite Rabs_R0]; lra. }
  assert (Fit : forall q, Rabs lr * maxabs (unit_vec q start) * maxabs o <= m_dwmin mt * IZR (up_BL u)).
  { intros q. pose proof (maxabs_nonneg o). pose proof (maxabs_nonneg (unit_vec q start)). pose proof (Rabs_pos_lt lr L). specialize (Mu q). apply (Rmult_le_compat_l (Rabs lr)) in Mo; [|lra].
    replace (Rabs lr * (m_dwmin mt * IZR (up_BL u) / Rabs lr)) with (m_dwmin mt * IZR (up_BL u)) in Mo by (field; now apply Rabs_no_R0).
    assert (Rabs lr * maxabs (unit_vec q start) * maxabs o <= Rabs lr * 1 * maxabs o) by (apply Rmult_le_compat_r; auto; apply Rmult_le_compat_l; lra). lra. }
  rewrite U. unfold slice_of. destruct (tp_columns t) eqn:Ec.
  - fold mt. rewrite Batch. pose proof (C61_expected_weight N G u mt lr [(unit_vec n start, o)] (snd (part_at s to)) i j c HN HG Hs Ht Hr Hm H1 Hg Hd L Hf) as P.
    cbn [length map sumR fst snd] in P. replace (INR 1 * (IZR (up_BL u) * m_dwmin mt)) with (IZR (up_BL u) * m_dwmin mt) in P by (cbn; lra). replace (INR 1 * (2 * IZR (up_BL u) * m_dwmin mt / INR (S N))) with (2 * IZR (up_BL u) * m_dwmin mt / INR (S N)) in P by (cbn [INR]; lra).
    replace (stored mt c + lr * (if (j =? start)%nat then part_weight s from i j else 0)) with (stored mt c - lr * (nth i o 0 * nth j (unit_vec n start) 0 + 0)); [apply P; auto; constructor; auto; apply Fit|].
    rewrite (proj2 (Wb i)), unit_nth, (proj2 (Nat.ltb_lt _ _) Hst), Bool.andb_true_r. destruct (Nat.eqb_spec j start) as [-> | Nj]; lra.
  - fold mt. rewrite Batch. pose proof (C61_expected_weight N G u mt lr [(o, unit_vec m start)] (snd (part_at s to)) i j c HN HG Hs Ht Hr Hm H1 Hg Hd L Hf) as P.
    cbn [length map sumR fst snd] in P. replace (INR 1 * (IZR (up_BL u) * m_dwmin mt)) with (IZR (up_BL u) * m_dwmin mt) in P by (cbn; lra). replace (INR 1 * (2 * IZR (up_BL u) * m_dwmin mt / INR (S N))) with (2 * IZR (up_BL u) * m_dwmin mt / INR (S N)) in P by (cbn [INR]; lra).
    replace (stored mt c + lr * (if (i =? start)%nat then part_weight s from i j else 0)) with (stored mt c - lr * (nth i (unit_vec m start) 0 * nth j o 0 + 0)); [apply P; auto; constructor; auto; unfold max_fits; cbn [fst snd]; specialize (Fit m); nra|].
    rewrite (proj2 (Wb j)), unit_nth, (proj2 (Nat.ltb_lt _ _) Hst), Bool.andb_true_r. destruct (Nat.eqb_spec i start) as [-> | Nj]; lra.
Qed.
(** With reset and one column per transfer: the column is read before it may be reset, and only
    that column is reset *)
Theorem C71_reset : forall t u to from cur n m s s' i j c, let lr := transfer_lr t from cur in let start := nth from (k_slices s) 0%nat in
  ideal_read (tp_read t) -> tp_up t = init_upar u -> sensible u -> stochastic u \/ 0 < lr -> lr <> 0 -> to <> from -> tp_random t = false -> tp_reads t = 1%nat -> tp_columns t = true ->
  rect n m s -> (to < length (k_parts s))%nat -> (from < length (k_parts s))%nat -> 0 < m_dwmin (fst (part_at s to)) -> (start < in_size t s)%nat ->
  yields (transfer t to from cur s) s' ->
  (part_at s' from = part_at s from \/ yields (part_op (OReset (Z.of_nat start) 1 1) (part_at s from)) (part_at s' from)) /\
  (cell_at (d_cells (snd (part_at s to))) i j = Some c -> exists c', cell_at (d_cells (snd (part_at s' to))) i j = Some c' /\
    if (j =? start)%nat then pulsed_towards u (fst (part_at s to)) lr (part_weight s from i j) c c' else c' = c).
Proof.
  intros t u to from cur n m s s' i j c lr start IR U Hs Ht L Ne Rn R1 Co Rc Lt Lf Hg Hst Y. unfold transfer in Y. cbv zeta in Y. rewrite Rn in Y. cbn [bindM] in Y. fold lr start in Y. rewrite R1 in Y.
  replace (Nat.min 1 (in_size t s)) with 1%nat in Y by lia. replace (in_size t s - start <? 1)%nat with false in Y by (symmetry; apply Nat.ltb_ge; lia).
  rewrite read_update_moves in Y by auto. cbn [seq foldMM] in Y. apply yields_bind in Y as (s1 & Y & E'). apply yields_ret in E'. apply yields_bind in Y as (s2 & Y & E2). apply yields_ret in E2. subst s2 s'.
  change (part_at (with_slices s1 _) ) with (part_at s1). split.
  - unfold move in Y. cbv zeta in Y. apply yields_bind in Y as (out & Yo & Y). apply yields_bind in Y as (v & Yv & Y). apply yields_bind in Y as (s0 & Y1 & Y). destruct (upd_part_at _ _ _ _ Y) as (_ & O & _). rewrite O by auto.
    destruct (_ && _)%bool; [right; destruct (upd_part_at _ _ _ _ Y1) as (_ & _ & H); now apply H | left; apply yields_ret in Y1; now subst].
  - intros E. destruct (move_cell t u to from lr _ _ n m s start s1 i j c IR U Hs Ht L Ne Rc Lt Lf Hg Hst Y E) as (c' & E' & _ & H). exists c'. split; auto. unfold slice_of in H. rewrite Co in H. exact H.
Qed.
(** ... but with several columns per transfer a reset clears all of them after the first read, and
    nothing of the others is transferred (a probability above one stands for a certain reset) *)
Theorem C71_reset_refuted : forall t u to from cur m s s' i c, let lr := transfer_lr t from cur in
  ideal_read (tp_read t) -> tp_up t = init_upar u -> sensible u -> stochastic u \/ 0 < lr -> lr <> 0 -> to <> from -> tp_random t = false -> tp_reads t = 2%nat -> tp_columns t = true -> 1 < tp_reset t ->
  rect 2 m s -> (to < length (k_parts s))%nat -> (from < length (k_parts s))%nat -> 0 < m_dwmin (fst (part_at s to)) -> nth from (k_slices s) 0%nat = 0%nat ->
  m_wn (fst (part_at s from)) <= 0 -> m_rstd (fst (part_at s from)) <= 0 -> (forall a b x, cell_at (d_cells (snd (part_at s from))) a b = Some x -> x_rbias (c_x x) = 0 /\ within (c_x x) 0) ->
  yields (transfer t to from cur s) s' -> cell_at (d_cells (snd (part_at s to))) i 1 = Some c -> cell_at (d_cells (snd (part_at s' to))) i 1 = Some c.
Proof.
  intros t u to from cur m s s' i c lr IR U Hs Ht L Ne Rn R1 Co Rs Rc Lt Lf Hg Hst Wn Rd Rb Y E. unfold transfer in Y. cbv zeta in Y. rewrite Rn in Y. cbn [bindM] in Y. fold lr in Y. rewrite R1, Hst in Y.
  pose proof (rect_in 2 m t s Rc) as Is. rewrite Co in Is. rewrite Is in Y. cbn [Nat.min Nat.sub Nat.ltb Nat.leb] in Y. rewrite read_update_moves in Y by auto. cbn [seq foldMM] in Y.
  apply yields_bind in Y as (sf & Y & E'). apply yields_ret in E'. apply yields_bind in Y as (s1 & Y1 & Y). apply yields_bind in Y as (s2 & Y2 & E2). apply yields_ret in E2. subst sf s'. change (part_at (with_slices s2 _) ) with (part_at s2).
  assert (L0 : (0 < in_size t s)%nat) by lia. destruct (move_cell t u to from lr _ _ 2 m s 0 s1 i 1 c IR U Hs Ht L Ne Rc Lt Lf Hg L0 Y1 E) as (c1 & E1 & M1 & H1). unfold slice_of in H1. rewrite Co in H1. cbn [Nat.eqb] in H1. subst c1.
  pose proof (move_rect _ _ _ _ _ _ _ _ _ _ _ Rc Y1) as Rc1. destruct (move_rest _ _ _ _ _ _ _ _ _ Y1) as [(_ & W1 & _ & _ & _ & Lp) _].
  assert (Is1 : in_size t s1 = 2%nat) by (rewrite (in_size_w t s s1); [exact Is | now rewrite W1]).
  assert (Lt1 : (to < length (k_parts s1))%nat) by (rewrite Lp; exact Lt). assert (Lf1 : (from < length (k_parts s1))%nat) by (rewrite Lp; exact Lf). assert (Hg1 : 0 < m_dwmin (fst (part_at s1 to))) by (rewrite M1; exact Hg). assert (L1 : (1 < in_size t s1)%nat) by lia.
  destruct (move_cell t u to from lr _ _ 2 m s1 1 s2 i 1 c IR U Hs Ht L Ne Rc1 Lt1 Lf1 Hg1 L1 Y2 E1) as (c2 & E2 & M2 & H2). unfold slice_of in H2. rewrite Co in H2. cbn [Nat.eqb] in H2. destruct H2 as (k & _ & _ & Z). rewrite <- Z; [exact E2|].
  (* the column was reset *)
  unfold move in Y1. cbv zeta in Y1. apply yields_bind in Y1 as (out & Yo & Y1). apply yields_bind in Y1 as (v & Yv & Y1). apply yields_bind in Y1 as (s0 & Y0 & Y1). destruct (upd_part_at _ _ _ _ Y1) as (_ & O & _).
  unfold unif in Yv. apply yields_unif in Yv as (v' & Hv & Yv). apply yields_ret in Yv. subst v'. rewrite (proj2 (Rltb_true v (tp_reset t))) in Y0 by lra. rewrite Co in Y0. cbn [andb] in Y0. destruct (upd_part_at _ _ _ _ Y0) as (_ & _ & Yr). specialize (Yr Lf).
  unfold part_weight. change (nth from (k_parts s1) no_part) with (part_at s1 from). rewrite O by auto. unfold part_op in Yr. apply yields_bind in Yr as (dv & Yr & Ye). apply yields_ret in Ye. rewrite Ye. cbn [snd]. rewrite vis_at.
  destruct (cell_at (d_cells dv) i 1) as [c'|] eqn:Ec'; auto.
  destruct (cell_at (d_cells (snd (part_at s from))) i 1) as [x|] eqn:Ex.
  2:{ exfalso. pose proof (do_op_dims _ _ (OReset 0 2 1) _ Logic.I Yr) as Dd. apply cell_at_dims in Ex. rewrite <- Dd in Ex. apply cell_at_dims in Ex. congruence. }
  pose proof Ex as Ex'. unfold cell_at in Ex'. destruct (nth_error (d_cells (snd (part_at s from))) i) as [row|] eqn:Er; [|discriminate].
  assert (Lr : length row = 2%nat). { destruct Rc as (_ & _ & F). rewrite Forall_forall in F. specialize (F (part_at s from) (nth_In _ _ Lf)). unfold pdims in F. pose proof (cell_row_len _ _ _ _ Ex) as Li. rewrite <- (nth_error_nth _ _ [] Er), <- dims_nth. rewrite F.
    rewrite (nth_error_nth (repeat 2%nat m) i 0%nat (x := 2%nat)); auto. apply nth_error_repeat. apply (f_equal (@length nat)) in F. unfold dims in F. rewrite map_length, repeat_length in F. lia. }
  destruct (C54_reset (fst (part_at s from)) 0 2 1 _ _ i 1 x row Yr Ex Er ltac:(lia) ltac:(lia)) as (x' & Ex1 & _ & _ & Hh). rewrite Ec' in Ex1. injection Ex1 as <-.
  destruct Hh as (gg & Hg'); [right; rewrite Lr; unfold addressed; exists 1%nat; cbn; lia | reflexivity |]. unfold stored in Hg'. rewrite (proj2 (Rltb_false 0 (m_wn (fst (part_at s from))))) in Hg' by lra. rewrite (proj2 (Rltb_false 0 (m_rstd (fst (part_at s from))))) in Hg' by lra.
  destruct (Rb _ _ _ Ex) as [B0 [B1 B2]]. rewrite Hg', B0. unfold bnd. mm.
Qed.
Example C71_example : let t := tpar_ex [1; 1] false [1; 0] in let s := comp1 [0; 1] [1/10; 0] 0 0 in
  ideal_read (tp_read t) /\ tp_up t = init_upar up_ex /\ sensible up_ex /\ stochastic up_ex /\ transfer_lr t 0 1 = 1 /\ no_reset t /\ rect 1 1 s /\ selected 0 (n_reads t s) (in_size t s) (slice_of t 0 0) /\
  updates_with 1 (CUpdate [] 1 1) /\ well_formed (KTransfer t) s /\ exists s', yields (transfer t 1 0 1 s) s'.
Proof.
  cbv zeta. split; [intros w x; reflexivity|]. split; [reflexivity|]. split; [split; simpl; [lia | lra]|]. split; [now right|]. split; [unfold transfer_lr; cbn; lra|]. split; [left; cbn; lra|]. split; [repeat split; try lia; repeat constructor|].
  split; [exists 0%nat; split; [cbn; lia | reflexivity]|]. split; [reflexivity|]. split; [repeat split; try discriminate; repeat constructor|].
  apply total_yields. unfold transfer. cbv zeta. cbn [tp_random tpar_ex bindM]. apply total_bind; [|intros; apply total_ret]. cbn [in_size tp_columns tpar_ex k_w comp1 nth length k_slices repeat tp_reads Nat.min Nat.sub Nat.ltb Nat.leb map].
  assert (E : transfer_lr (tpar_ex [1; 1] false [1; 0]) 0 1 = 1) by (unfold transfer_lr; cbn; lra). rewrite E. rewrite read_update_moves; [|lra | lia]. cbn [seq foldMM]. apply total_bind; [|intros; apply total_ret].
  unfold move. cbv zeta. apply total_bind; [apply total_ret|]. intros out _. apply total_bind; [apply total_unif; intros; apply total_ret|]. intros v Yv. apply total_bind.
  - rewrite (proj2 (Rltb_false v (tp_reset (tpar_ex [1; 1] false [1; 0])))); [apply total_ret|]. unfold unif in Yv. apply yields_unif in Yv as (v' & Hv & Yv). apply yields_ret in Yv. subst v'. cbn. lra.
  - intros s1 _. unfold write_slice, upd_part. apply total_bind; [|intros; apply total_ret]. apply upd_nth_total. intros p. apply total_bind; [|intros; apply total_ret]. cbn [tp_columns tpar_ex]. apply update_vector_total.
Qed.

Print Assumptions C70_schedule.
Print Assumptions C70_default_cycles.
Print Assumptions C70_documented_cycles_refuted.
Print Assumptions C71_content.
Print Assumptions C71_idle.
Print Assumptions C71_average.
Print Assumptions C71_reset.
Print Assumptions C71_reset_refuted.
