(** * Compound devices: a whole update of a transfer device (C70, C71) *)
From Verif Require Import Prelude Rand DevModel DevSpec DevProofs PulseModel PulseSpec PulseProofs PulseProps CompModel CompSpec CompProofs CompProofs2 CompProofs3 CompProofs4 CompProps CompProps2 CompProps3 CompProps5.

(** Setting the weights starts the schedule anew: the counter of updates, the positions of the
    transfers and, unless the active crossbar is fixed, the active crossbar. *)
Theorem C65_counters : forall kd w s s', yields (set_weights kd w s) s' -> k_cnt s' = 0%nat /\
  match kd with
  | KTransfer _ => forall j, nth j (k_slices s') 0%nat = 0%nat
  | KVector SingleFixed _ => k_idx s' = k_idx s
  | KVector _ f => k_idx s' = f
  | KOneSided _ => k_idx s' = 0%nat
  end.
Proof.
  intros kd w s s' Y. assert (Sh : forall z, k_cnt (show kd z) = k_cnt z /\ k_idx (show kd z) = k_idx z /\ k_slices (show kd z) = k_slices z) by (intros z; unfold show; destruct (hidden kd); repeat split).
  destruct kd as [p f | r | t]; cbn [set_weights] in Y; cbv zeta in Y.
  - apply yields_bind in Y as (ps & _ & Y). apply yields_ret in Y. subst s'. destruct (Sh (with_parts (match p with SingleFixed => with_idx s (k_idx s) 0 | _ => with_idx s f 0 end) ps)) as (A & B & _). rewrite A, B. destruct p; split; reflexivity.
  - apply yields_bind in Y as (ps & _ & Y). apply yields_ret in Y. subst s'. destruct (Sh (with_parts (with_idx s 0 0) ps)) as (A & B & _). rewrite A, B. split; reflexivity.
  - assert (Z : forall z, k_slices z = repeat 0%nat (length (k_parts s)) -> forall j, nth j (k_slices z) 0%nat = 0%nat) by (intros z E j; rewrite E; apply nth_repeat).
    destruct (tp_hidden t); [|destruct (Reqb _ _); [now apply yields_throw in Y|]]; apply yields_bind in Y as (ps & _ & Y); apply yields_ret in Y; subst s';
      (destruct (Sh (with_parts (with_slices (with_idx s (k_idx s) 0) (repeat 0%nat (length (k_parts s)))) ps)) as (A & _ & C); rewrite A; split; [reflexivity | apply Z; rewrite C; reflexivity]).
Qed.
(** Decay, diffusion, clipping and drift are done on every crossbar; resetting columns of a
    transfer device resets those of the first crossbar only. *)
Definition part_effect (kd : kind) (o : cop) (k : nat) : option op :=
  match o with
  | CDecay a b => Some (ODecay a b)
  | CDiffuse => Some ODiffuse
  | CClip v => Some (OClip v)
  | CDrift p dt => Some (ODrift p dt)
  | CReset a n p => match kd with KTransfer _ => if (k =? 0)%nat then Some (OReset a n p) else None | _ => Some (OReset a n p) end
  | _ => None
  end.
Theorem C64_parts : forall kd o s s' k, match o with CUpdate _ _ _ | CSet _ | CFloat _ => False | _ => True end -> yields (cdo kd s o) s' -> (k < length (k_parts s))%nat ->
  length (k_parts s') = length (k_parts s) /\ match part_effect kd o k with Some op => yields (part_op op (part_at s k)) (part_at s' k) | None => part_at s' k = part_at s k end.
Proof.
  intros kd o s s' k Ho Y Lk. assert (Sh : forall z, k_parts (show kd z) = k_parts z) by (intros z; unfold show; destruct (hidden kd); reflexivity).
  assert (Al : forall op s1, yields (all_parts op s) s1 -> length (k_parts s1) = length (k_parts s) /\ yields (part_op op (part_at s k)) (part_at s1 k)).
  { intros op s1 Ya. unfold all_parts in Ya. apply yields_bind in Ya as (ps & Ya & E). apply yields_ret in E. subst s1. cbn [k_parts with_parts]. apply yields_mapMM in Ya. split; [clear -Ya; induction Ya; cbn; auto|].
    unfold part_at. cbn [k_parts with_parts]. revert k Lk. induction Ya as [|a b l r H F IH]; intros k Lk; cbn in Lk; [lia|]. destruct k; cbn [nth]; [exact H | apply IH; lia]. }
  destruct o; try contradiction; cbn [cdo part_effect] in *; unfold part_at in *.
  1-4: apply yields_bind in Y as (s1 & Y & E); apply yields_ret in E; subst s'; rewrite Sh; now apply Al.
  unfold reset_cols in Y. apply yields_bind in Y as (s1 & Y & E). apply yields_ret in E. subst s'. rewrite Sh. destruct kd as [p f | r | t]; try now apply Al.
  destruct (upd_part_at _ _ _ _ Y) as ((_ & _ & _ & _ & _ & L) & O & P). split; [exact L|]. destruct (Nat.eqb_spec k 0) as [-> | Nk]; [now apply P | now apply O].
Qed.
(** The period of crossbar [j] in updates: [transfer_every] rounded to the nearest integer, or
    with [units_in_mbatch] the smallest integer not below [transfer_every] times the size of the
    mini batch *)
Theorem C70_period : forall t j mb, 0 <= nth j (tp_every t) 0 ->
  if tp_mb t then nth j (tp_every t) 0 * INR mb <= INR (transfer_every t j mb) < nth j (tp_every t) 0 * INR mb + 1
  else nth j (tp_every t) 0 - 1/2 < INR (transfer_every t j mb) <= nth j (tp_every t) 0 + 1/2.
Proof.
  intros t j mb P. unfold transfer_every, ceilf, roundf. set (e := nth j (tp_every t) 0) in *. destruct (tp_mb t).
  - pose proof (ceilZ_spec (e * INR mb)) as H. pose proof (pos_INR mb). assert (0 <= e * INR mb) by (apply Rmult_le_pos; auto).
    assert (Z0 : (0 <= ceilZ (e * INR mb))%Z) by (apply le_IZR; lra). rewrite (INR_IZR_INZ (Z.to_nat _)), Z2Nat.id by auto. lra.
  - rewrite (proj2 (Rleb_true 0 e)) by auto. pose proof (floorZ_spec (e + 1/2)) as H. assert (Z0 : (0 <= floorZ (e + 1/2))%Z).
    { assert (Q : -1 < IZR (floorZ (e + 1/2))) by lra. change (-1) with (IZR (-1)) in Q. apply lt_IZR in Q. lia. } rewrite (INR_IZR_INZ (Z.to_nat _)), Z2Nat.id by auto. lra.
Qed.
(** A transfer device that can be built has one factor, learning rate and cycle per crossbar, and
    reads at most all columns (rows) *)
Theorem C70_parameters : forall u n xs dsz gv hid ev lrs rd, init_transfer u n xs dsz = Ok (gv, hid, ev, lrs, rd) ->
  (2 <= n)%nat /\ length gv = n /\ length ev = n /\ length lrs = n /\ rd = Nat.min (tu_reads u) (if tu_columns u then xs else dsz).
Proof.
  intros u n xs dsz gv hid ev lrs rd H. unfold init_transfer in H. cbv zeta in H. destruct (Nat.ltb_spec n 2); [discriminate|]. destruct (tu_gamma_vec u) as [|g0 gs] eqn:Eg.
  - cbn [bind] in H. match type of H with (if negb ?b then _ else _) = _ => destruct b eqn:El end; cbn [negb] in H; [|discriminate]. apply Nat.eqb_eq in El.
    match type of H with (if negb ?b then _ else _) = _ => destruct b eqn:Ev end; cbn [negb] in H; [|discriminate]. apply Nat.eqb_eq in Ev. destruct (_ && _)%bool eqn:?; [discriminate|]. cbv zeta in H. injection H as <- E2 <- <- <-. clear E2. rewrite Ev, El.
    unfold gamma_default. rewrite map_length, seq_length. split; [lia|]. do 3 (split; [reflexivity|]). match goal with |- context[(?a <? ?b)%nat] => destruct (Nat.ltb_spec a b) end; lia.
  - destruct (Nat.eqb_spec (length (g0 :: gs)) n) as [Eh | ]; cbn [negb] in H; [|discriminate]. destruct (Reqb _ _); [discriminate|]. cbn [bind] in H.
    match type of H with (if negb ?b then _ else _) = _ => destruct b eqn:El end; cbn [negb] in H; [|discriminate]. apply Nat.eqb_eq in El.
    match type of H with (if negb ?b then _ else _) = _ => destruct b eqn:Ev end; cbn [negb] in H; [|discriminate]. apply Nat.eqb_eq in Ev. destruct (_ && _)%bool eqn:?; [discriminate|]. cbv zeta in H. injection H as <- E2 <- <- <-. clear E2. rewrite Ev, El.
    split; [lia|]. split; [exact Eh|]. do 2 (split; [reflexivity|]). match goal with |- context[(?a <? ?b)%nat] => destruct (Nat.ltb_spec a b) end; lia.
Qed.
Lemma transfer_calls_gets : forall cs s s', (0 < length (k_parts s))%nat -> yields (foldMM transfer_call cs s) s' -> gets cs (part_at s 0) (part_at s' 0).
Proof.
  induction cs as [|c cs IH]; intros s s' L Y; cbn [foldMM] in Y; [apply yields_ret in Y; subst; constructor|]. apply yields_bind in Y as (s1 & Y1 & Y).
  assert (Y1' : yields (send SingleFixed (with_idx s 0 (k_cnt s)) (call_pulses c)) s1) by (destruct c; exact Y1).
  pose proof (send_parts _ _ _ _ 0 Y1' L) as P. destruct (send_other _ _ _ _ Y1') as (_ & Ln & _). cbn [k_idx k_parts with_idx active single negb orb Nat.eqb] in *.
  assert (L1 : (0 < length (k_parts s1))%nat) by (rewrite Ln; exact L). specialize (IH _ _ L1 Y). unfold gets in *. cbn [foldMM]. apply yields_bind. exists (part_at s1 0). split; [exact P | exact IH].
Qed.
Lemma transfer_calls_rect n m : forall cs s s', rect n m s -> yields (foldMM transfer_call cs s) s' -> rect n m s'.
Proof.
  induction cs as [|c cs IH]; intros s s' Rc Y; cbn [foldMM] in Y; [apply yields_ret in Y; now subst|]. apply yields_bind in Y as (s1 & Y1 & Y). apply (IH s1); auto. destruct Rc as (P & D & F).
  assert (Y1' : yields (send SingleFixed (with_idx s 0 (k_cnt s)) (call_pulses c)) s1) by (destruct c; exact Y1). unfold send in Y1'. apply yields_bind in Y1' as (ps & Y2 & E). apply yields_ret in E. subst s1. cbn [k_parts k_w with_parts with_idx] in *.
  split; [exact P|]. split; [exact D|]. cbn [k_parts with_parts]. apply Forall_forall. intros p Ip. apply (In_nth _ _ no_part) in Ip as (k & Lk & <-). pose proof (mapMM_length _ _ _ Y2) as L. rewrite zipi_length in L.
  rewrite L in Lk. pose proof (mapMM_zipi_nth _ _ _ k Y2 Lk) as Yk. cbn [fst snd] in Yk. rewrite Forall_forall in F. specialize (F (nth k (k_parts s) no_part) (nth_In _ _ Lk)). destruct (active _ _ _).
  - exact (proj1 (part_op_dims _ (OPulses (call_pulses c)) _ _ Logic.I F Yk)).
  - apply yields_ret in Yk. unfold part in *. rewrite Yk. exact F.
Qed.
(** crossbar [j] is transferred at update number [c]: its period divides [c] *)
Definition transfer_due (t : tpar) (mb c j : nat) : Prop := transfer_every t j mb <> 0%nat /\ Nat.divide (transfer_every t j mb) c.
Lemma due_spec t mb c j : due t mb c j = true <-> transfer_due t mb c j.
Proof.
  unfold due, transfer_due. rewrite Bool.andb_true_iff, Nat.ltb_lt, Nat.eqb_eq. split; intros [A B]; (split; [lia|]).
  - apply Nat.mod_divide; auto; lia.
  - apply Nat.mod_divide in B; auto.
Qed.
Lemma finish_one t lr mb n : forall js j s s', NoDup js -> List.In j js -> (forall k, List.In k js -> k <> j -> due t mb (k_cnt s) k = false) -> due t mb (k_cnt s) j = true ->
  yields (foldMM (fun s j => let every := transfer_every t j mb in if (Nat.ltb 0 every && (k_cnt s mod every =? 0)%nat)%bool then transfer t (Nat.min (S j) (n - 1)) j lr s else Ret s) js s) s' ->
  yields (transfer t (Nat.min (S j) (n - 1)) j lr s) s'.
Proof.
  induction js as [|a js IH]; intros j s s' ND Ij Nd D Y; [contradiction|]. cbn [foldMM] in Y. apply yields_bind in Y as (s1 & Y1 & Y). cbv zeta in Y1. change (_ && _)%bool with (due t mb (k_cnt s) a) in Y1.
  inversion ND as [|? ? Na ND']; subst. destruct (Nat.eq_dec a j) as [-> | Nj].
  - rewrite D in Y1. assert (C1 : k_cnt s1 = k_cnt s) by (apply transfer_slices in Y1 as (i0 & I0 & Sl & _ & W & _ & C & L & _); exact C). assert (E : s' = s1); [|now subst].
    assert (G : forall ks (z z' : comp), (forall k, List.In k ks -> due t mb (k_cnt z) k = false) -> yields (foldMM (fun s j => let every := transfer_every t j mb in if (Nat.ltb 0 every && (k_cnt s mod every =? 0)%nat)%bool then transfer t (Nat.min (S j) (n - 1)) j lr s else Ret s) ks z) z' -> z' = z).
    { induction ks as [|k ks IHk]; intros z z' Nz Yz; cbn [foldMM] in Yz; [now apply yields_ret in Yz|]. apply yields_bind in Yz as (z1 & Y2 & Yz). cbv zeta in Y2. change (_ && _)%bool with (due t mb (k_cnt z) k) in Y2. rewrite (Nz k) in Y2 by (simpl; auto).
      apply yields_ret in Y2. subst z1. apply IHk; auto. intros k' Ik. apply Nz. simpl; auto. }
    apply (G js); auto. intros k Ik. rewrite C1. apply Nd; [simpl; auto | intros ->; auto].
  - rewrite (Nd a) in Y1 by (simpl; auto). apply yields_ret in Y1. subst s1. apply IH; auto.
    + destruct Ij; [congruence | auto].
    + intros k Ik. apply Nd. simpl; auto.
Qed.
Lemma finish_none t lr mb n : forall js s s', (forall k, List.In k js -> due t mb (k_cnt s) k = false) ->
  yields (foldMM (fun s j => let every := transfer_every t j mb in if (Nat.ltb 0 every && (k_cnt s mod every =? 0)%nat)%bool then transfer t (Nat.min (S j) (n - 1)) j lr s else Ret s) js s) s' -> s' = s.
Proof.
  induction js as [|k ks IHk]; intros z z' Nz Yz; cbn [foldMM] in Yz; [now apply yields_ret in Yz|]. apply yields_bind in Yz as (z1 & Y2 & Yz). cbv zeta in Y2. change (_ && _)%bool with (due t mb (k_cnt z) k) in Y2. rewrite (Nz k) in Y2 by (simpl; auto).
  apply yields_ret in Y2. subst z1. apply IHk; auto. intros k' Ik. apply Nz. simpl; auto.
Qed.
(** An update at which only crossbar [j] is due: the first crossbar gets the pulses of the update,
    then the next crossbar gets pulses towards the transfer learning rate ([transfer_lr_vec],
    times the learning rate of the tile if [scale_transfer_lr]) times the weight of crossbar [j]
    on the selected columns (rows); all other crossbars stay as they are. *)
Theorem C71_update : forall t u cs cur mb n m s s' j, let lr := nth j (tp_lrs t) 0 * (if tp_scale t then cur else 1) in let start := nth j (k_slices s) 0%nat in
  ideal_read (tp_read t) -> tp_up t = init_upar u -> sensible u -> stochastic u \/ 0 < lr -> lr <> 0 -> no_reset t -> tp_random t = false ->
  rect n m s -> (S j < length (k_parts s))%nat -> 0 < m_dwmin (fst (part_at s (S j))) -> (start < in_size t s)%nat ->
  transfer_due t mb (S (k_cnt s)) j -> (forall k, (k < length (k_parts s))%nat -> k <> j -> ~ transfer_due t mb (S (k_cnt s)) k) ->
  yields (update (KTransfer t) cs cur mb s) s' ->
  gets cs (part_at s 0) (part_at s' 0) /\ (forall k, k <> 0%nat -> k <> S j -> part_at s' k = part_at s k) /\
  forall i b c, cell_at (d_cells (snd (part_at s (S j)))) i b = Some c -> exists c', cell_at (d_cells (snd (part_at s' (S j)))) i b = Some c' /\
    (selected start (n_reads t s) (in_size t s) (slice_of t i b) -> pulsed_towards u (fst (part_at s (S j))) lr (part_weight s' j i b) c c') /\
    (~ selected start (n_reads t s) (in_size t s) (slice_of t i b) -> c' = c).
Proof.
  intros t u cs cur mb n m s s' j lr start IR U Hs Ht L NR Rn Rc Lj Hg Hst Du Nd Y. cbn [update] in Y. apply yields_bind in Y as (s1 & Y1 & Y).
  assert (L0 : (0 < length (k_parts s))%nat) by lia. pose proof (transfer_calls_gets _ _ _ L0 Y1) as G1. pose proof (transfer_calls_rect n m _ _ _ Rc Y1) as Rc1. destruct (transfer_calls_rest _ _ _ Y1) as (C1 & W1 & S1 & L1 & P1).
  unfold transfer_finish in Y. cbv zeta in Y. apply yields_bind in Y as (s2 & Y2 & Y). apply yields_ret in Y. rewrite L1 in Y2.
  apply (finish_one t cur mb (length (k_parts s)) _ j) in Y2; [|apply seq_NoDup | apply in_seq; lia | |].
  2:{ intros k Ik Nk. cbn [k_cnt with_idx]. rewrite C1. apply in_seq in Ik. apply Bool.not_true_is_false. intros E. apply due_spec in E. apply (Nd k); auto; lia. }
  2:{ cbn [k_cnt with_idx]. rewrite C1. now apply due_spec. }
  replace (Nat.min (S j) (length (k_parts s) - 1)) with (S j) in Y2 by lia. set (z := with_idx s1 0 (S (k_cnt s1))) in *.
  assert (Rz : rect n m z) by exact Rc1. assert (Iz : in_size t z = in_size t s) by (apply in_size_w; cbn [z k_w with_idx]; now rewrite W1).
  assert (Pz : forall k, part_at z k = part_at s1 k) by reflexivity.
  assert (A1 : lr = transfer_lr t j cur) by reflexivity.
  assert (A2 : (S j < length (k_parts z))%nat) by (cbn [z k_parts with_idx]; lia). assert (A3 : (j < length (k_parts z))%nat) by (cbn [z k_parts with_idx]; lia).
  assert (A4 : 0 < m_dwmin (fst (part_at z (S j)))) by (rewrite Pz, P1 by lia; exact Hg). assert (A5 : (nth j (k_slices z) 0 < in_size t z)%nat) by (rewrite Iz; cbn [z k_slices with_idx]; rewrite S1; exact Hst).
  assert (Ps : forall k, part_at s' k = part_at s2 k). { intros k. subst s'. unfold show. destruct (hidden _); reflexivity. }
  assert (O : forall k, k <> S j -> part_at s2 k = part_at s1 k). { intros k Nk. destruct (C71_content t u (S j) j cur n m z s2 0 0 (cell0 0)) as [H _]; auto. rewrite H by auto. apply Pz. }
  split; [|split].
  - rewrite Ps, O by lia. exact G1.
  - intros k K0 Kj. rewrite Ps, O by auto. apply P1; auto.
  - intros i b c E. destruct (C71_content t u (S j) j cur n m z s2 i b c) as [_ H]; auto. rewrite Pz, P1 in H by lia. destruct (H E) as (c' & E' & H1 & H2). exists c'. rewrite Ps. split; [exact E'|].
    assert (Nz : n_reads t z = n_reads t s) by (unfold n_reads; now rewrite Iz). rewrite Nz, Iz in *. cbn [z k_slices with_idx] in H1, H2. rewrite S1 in H1, H2. fold start in H1, H2. split; [|exact H2]. intros Se. specialize (H1 Se).
    assert (Ew : part_weight s' j i b = part_weight z j i b). { unfold part_weight. change (nth j (k_parts s') no_part) with (part_at s' j). change (nth j (k_parts z) no_part) with (part_at z j). rewrite Ps, O by lia. reflexivity. }
    rewrite Ew, A1. exact H1.
Qed.
(** No crossbar is due: only the pulses of the update *)
Theorem C71_not_due : forall t cs cur mb s s', k_parts s <> [] -> (forall k, (k < length (k_parts s))%nat -> ~ transfer_due t mb (S (k_cnt s)) k) -> yields (update (KTransfer t) cs cur mb s) s' ->
  gets cs (part_at s 0) (part_at s' 0) /\ forall k, k <> 0%nat -> part_at s' k = part_at s k.
Proof.
  intros t cs cur mb s s' NE Nd Y. cbn [update] in Y. apply yields_bind in Y as (s1 & Y1 & Y). assert (L0 : (0 < length (k_parts s))%nat) by (destruct (k_parts s); [congruence | simpl; lia]).
  pose proof (transfer_calls_gets _ _ _ L0 Y1) as G1. destruct (transfer_calls_rest _ _ _ Y1) as (C1 & W1 & S1 & L1 & P1).
  unfold transfer_finish in Y. cbv zeta in Y. apply yields_bind in Y as (s2 & Y2 & Y). apply yields_ret in Y. apply finish_none in Y2.
  2:{ intros k Ik. cbn [k_cnt with_idx]. rewrite C1. apply in_seq in Ik. apply Bool.not_true_is_false. intros E. apply due_spec in E. apply (Nd k); auto; lia. }
  subst s2. assert (Ps : forall k, part_at s' k = part_at s1 k). { intros k. subst s'. unfold show. destruct (hidden _); reflexivity. } split; [rewrite Ps; exact G1|]. intros k K0. rewrite Ps. apply P1; auto.
Qed.
Example C71_update_example : let t := tpar_ex [1; 1] false [1; 0] in let s := comp1 [0; 1] [1/10; 0] 0 0 in
  transfer_due t 1 (S (k_cnt s)) 0 /\ (forall k, (k < length (k_parts s))%nat -> k <> 0%nat -> ~ transfer_due t 1 (S (k_cnt s)) k) /\ (1 < length (k_parts s))%nat /\ (nth 0 (k_slices s) 0 < in_size t s)%nat /\ 0 < m_dwmin (fst (part_at s 1)).
Proof.
  cbv zeta. assert (E1 : transfer_every (tpar_ex [1; 1] false [1; 0]) 0 1 = 1%nat).
  { pose proof (C70_period (tpar_ex [1; 1] false [1; 0]) 0 1 ltac:(cbn; lra)) as H. cbn [tp_mb tpar_ex tp_every nth] in H. apply INR_eq. assert (A : INR (transfer_every (tpar_ex [1; 1] false [1; 0]) 0 1) < INR 2) by (cbn [INR]; lra). assert (B : INR 0 < INR (transfer_every (tpar_ex [1; 1] false [1; 0]) 0 1)) by (cbn [INR]; lra).
    apply INR_lt in A, B. f_equal. lia. }
  split; [split; [rewrite E1; lia | rewrite E1; now exists 1%nat]|]. split; [|split; [cbn; lia | split; [cbn; lia | cbn; lra]]].
  intros k Lk Nk [H _]. apply H. unfold transfer_every. cbn [tp_mb tpar_ex tp_every]. cbn in Lk. replace k with 1%nat by lia. cbn [nth]. now rewrite roundf_0.
Qed.

Print Assumptions C65_counters.
Print Assumptions C64_parts.
Print Assumptions C70_period.
Print Assumptions C70_parameters.
Print Assumptions C71_update.
Print Assumptions C71_not_due.
