(** * Chopped transfer: example for C74, regular and random choppers (C75) *)
From Verif Require Import Prelude Rand DevModel DevSpec DevProofs PulseModel PulseSpec PulseProofs PulseProps CompModel CompSpec CompProofs CompProofs2 CompProofs3 CompProofs4 CompProps CompProps3 CompProps5 CompProps6 TransModel TransSpec TransProofs TransProps TransProofs2 TransProps2 TransProofs3 TransProps3.

Definition cpar_ex (inp : R) (rand : bool) : cpar :=
  {| cp_b := bpar_ex false 0; cp_in_prob := inp; cp_in_random := rand; cp_out_prob := 0; cp_correct := false; cp_auto_gran := 0; cp_gran := 1; cp_no_buffer := false; cp_every := 1; cp_states := [10; 10] |}.
Definition cstate_ex (f : bool) : cstate := {| s_b := bstate_ex (1/20); s_in := [f]; s_out := [false]; s_cnt := 0 |}.
Lemma chop_transfer_total t p count cur s : (forall w x, total (tp_read t w x)) -> tp_random t = false -> tp_reads t = 1%nat -> (nth 0 (k_slices (s_c s)) 0 < in_size t (s_c s))%nat -> total (chop_transfer t p count 1 0 cur s).
Proof.
  intros Tr Rn Rd Li. unfold chop_transfer, transfer_g. cbv zeta. rewrite Rn. cbn [bindM]. rewrite Rd. replace (Nat.min 1 (in_size t (s_c s))) with 1%nat by lia.
  match goal with |- context [(?a - ?b <? 1)%nat] => replace (a - b <? 1)%nat with false by (symmetry; apply Nat.ltb_ge; lia) end.
  apply total_bind; [|intros; apply total_ret]. unfold chop_read. destruct (Reqb _ 0); [apply total_ret|]. cbn [Nat.eqb negb andb]. cbv zeta.
  apply total_bind. { unfold read_plain, read_slice. cbv zeta. apply total_bind; [|intros; apply total_ret]. apply total_bind; [apply Tr | intros; apply total_ret]. }
  intros out _. apply total_bind.
  { destruct (existsb _ _); [|apply total_ret]. unfold write_slice, upd_part. apply total_bind; [|intros; apply total_ret]. apply upd_nth_total. intros q. apply total_bind; [|intros; apply total_ret]. destruct (tp_columns t); apply update_vector_total. }
  intros c1 _. apply total_bind.
  { unfold flip_in. destruct (Rltb 0 _); [|apply total_ret]. apply total_bind; [|intros; apply total_ret]. destruct (cp_in_random p); [|apply total_ret]. apply total_bind; [apply total_unif; intros; apply total_ret | intros; apply total_ret]. }
  intros s2 _. destruct (_ =? _)%nat; [|apply total_ret]. apply total_bind; [|intros; apply total_ret]. destruct (Rltb 0 _); [|apply total_ret]. unfold flip_out. apply total_bind; [|intros; apply total_ret].
  apply total_foldMM. intros. apply total_bind; [apply total_unif; intros; apply total_ret | intros; apply total_ret].
Qed.
Example C74_example : let t := tpar_ex [1; 1] false [1; 0] in let p := cpar_ex (1/10) true in let s := cstate_ex true in
  ideal_read (tp_read t) /\ tp_up t = init_upar up_ex /\ sensible up_ex /\ 0 < bp_step (cp_b p) /\ buffer_lr t (s_c s) 0 1 <> 0 /\ rect 1 1 (s_c s) /\ buf_sized 1 1 (s_b s) /\ (1 < length (k_parts (s_c s)))%nat /\
  0 < m_dwmin (fst (part_at (s_c s) 1)) /\ (nth 0 (k_slices (s_c s)) 0 < in_size t (s_c s))%nat /\ sign_at t s 0 0 = -1 /\ exists s', yields (chop_transfer t p 1 1 0 1 s) s'.
Proof.
  cbv zeta. destruct C72_example as (H1 & H2 & H3 & _ & H5 & H6 & H7 & H8 & H9 & H10 & _). split; [exact H1|]. split; [exact H2|]. split; [exact H3|]. split; [cbn; lra|]. split; [exact H5|]. split; [exact H6|]. split; [exact H7|]. split; [exact H8|]. split; [exact H9|]. split; [exact H10|]. split; [reflexivity|].
  apply total_yields. apply chop_transfer_total; try reflexivity; [intros; apply total_ret | exact H10].
Qed.

(** ** Regular choppers *)
(** any number of transfers, with the learning rates [curs] of their updates *)
Definition chop_run (t : tpar) (p : cpar) (count : R) (curs : vec) (s s' : cstate) : Prop := yields (foldMM (fun s cur => chop_transfer t p count 1 0 cur s) curs s) s'.
Lemma odd_step ns c q : (0 < ns)%nat -> Nat.odd ((c + (q + 1)) / ns - c / ns) = xorb (Nat.odd ((c + q) / ns - c / ns)) (((c + q) mod ns + 1 =? ns)%nat).
Proof.
  intros H. assert (L : (c / ns <= (c + q) / ns)%nat) by (apply Nat.div_le_mono; lia). pose proof (Nat.div_mod (c + q) ns ltac:(lia)) as D. pose proof (Nat.mod_upper_bound (c + q) ns ltac:(lia)) as U.
  replace (c + (q + 1))%nat with (c + q + 1)%nat by lia. destruct (Nat.eqb_spec ((c + q) mod ns + 1) ns) as [E | E].
  - replace ((c + q + 1) / ns)%nat with (S ((c + q) / ns)); [|apply Nat.div_unique with 0%nat; [lia|]; rewrite Nat.mul_succ_r; lia].
    rewrite Bool.xorb_true_r, Nat.sub_succ_l by exact L. rewrite Nat.odd_succ. now rewrite <- Nat.negb_odd.
  - rewrite Bool.xorb_false_r. f_equal. f_equal. symmetry. apply Nat.div_unique with ((c + q) mod ns + 1)%nat; [lia|]. lia.
Qed.
(** the number of times column (row) [i] was read in the first [r] transfers *)
Definition reads_of (ins r i : nat) : nat := (r / ins + if (i <? r mod ins)%nat then 1 else 0)%nat.
Section Regular.
Variables (t : tpar) (p : cpar) (count : R) (ins c0 : nat) (f0 : nat -> bool) (gam : vec) (okr : R -> Prop).
Hypothesis (Rn : tp_random t = false) (Rd : tp_reads t = 1%nat) (Pp : 0 < cp_in_prob p) (Ri : cp_in_random p = false) (Ip : (0 < ins)%nat).
Definition reg_inv (r : nat) (s : cstate) : Prop :=
  in_size t (s_c s) = ins /\ (0 < length (k_slices (s_c s)))%nat /\ k_gam (s_c s) = gam /\ length (s_in s) = ins /\ nth 0 (k_slices (s_c s)) 0%nat = (r mod ins)%nat /\ s_cnt s = (c0 + r / ins)%nat /\
  forall i, (i < ins)%nat -> flag (s_in s) i = xorb (f0 i) (Nat.odd ((c0 + reads_of ins r i) / chop_period p - c0 / chop_period p)).
Lemma period_pos : (0 < chop_period p)%nat.
Proof. unfold chop_period. lia. Qed.
Lemma succ_mod r : (S r mod ins = if (r mod ins =? ins - 1)%nat then 0 else r mod ins + 1)%nat /\ (S r / ins = if (r mod ins =? ins - 1)%nat then r / ins + 1 else r / ins)%nat.
Proof.
  pose proof (Nat.div_mod r ins ltac:(lia)) as D. pose proof (Nat.mod_upper_bound r ins ltac:(lia)) as U. destruct (Nat.eqb_spec (r mod ins) (ins - 1)) as [E | E].
  - split; symmetry; [apply Nat.mod_unique with (r / ins + 1)%nat; [lia|] | apply Nat.div_unique with 0%nat; [lia|]]; rewrite ?Nat.add_1_r, ?Nat.mul_succ_r; lia.
  - split; symmetry; [apply Nat.mod_unique with (r / ins)%nat; [lia|] | apply Nat.div_unique with (r mod ins + 1)%nat; [lia|]]; lia.
Qed.
Lemma reg_step r s s' cur : reg_inv r s -> (forall c, k_gam c = gam -> buffer_lr t c 0 cur <> 0) -> yields (chop_transfer t p count 1 0 cur s) s' -> reg_inv (S r) s'.
Proof.
  intros (Is & Ls & G & Li & Sl & C & F) Hl Y. assert (U : (r mod ins < ins)%nat) by (apply Nat.mod_upper_bound; lia).
  assert (Hst : (nth 0 (k_slices (s_c s)) 0 < in_size t (s_c s))%nat) by (rewrite Sl, Is; exact U).
  pose proof (chop_transfer_rest _ _ _ _ _ _ _ _ Y) as (_ & G' & W' & Ls' & _ & Li' & _).
  destruct (chop_step t p count cur s s' Rn Rd Hst Y) as (s1 & Y1 & E'). pose proof (chop_read_rest _ _ _ _ _ _ _ _ _ _ Y1) as ((_ & _ & _ & _ & Sl1 & _) & _).
  apply chop_read_mid in Y1 as (_ & C1 & Ko & _ & _ & _ & _ & Ki); [|apply Hl; exact G]. rewrite Sl, Is in *. destruct (succ_mod r) as [Sm Sd].
  assert (Is' : in_size t (s_c s') = ins) by (unfold in_size in *; rewrite W'; exact Is).
  split; [exact Is'|]. split; [rewrite Ls'; exact Ls|]. split; [congruence|]. split; [congruence|]. split; [|split].
  - rewrite E'. cbn [s_c put_c s_b with_c b_c k_slices with_slices]. rewrite set_nth_nth, Nat.eqb_refl. fold (s_c s1). rewrite Sl1, (proj2 (Nat.ltb_lt _ _) Ls). cbn [andb]. rewrite Sm. destruct (Nat.eqb_spec (r mod ins) (ins - 1)) as [E | E].
    + rewrite E. replace (ins - 1 + 1)%nat with ins by lia. apply Nat.mod_same. lia.
    + apply Nat.mod_small. lia.
  - rewrite E'. cbn [s_cnt put_c]. rewrite C1, C, Sd. destruct (_ =? _)%nat; lia.
  - intros i Hi. rewrite E'. cbn [s_in put_c]. destruct (Nat.eq_dec i (r mod ins)) as [-> | N].
    + rewrite Ki by (auto; rewrite Li; exact U). rewrite F by exact U. rewrite C. unfold reads_of at 1. rewrite Nat.ltb_irrefl, Nat.add_0_r.
      replace (reads_of ins (S r) (r mod ins)) with (r / ins + 1)%nat. 2: { unfold reads_of. rewrite Sm, Sd. destruct (Nat.eqb_spec (r mod ins) (ins - 1)); [replace (r mod ins <? 0)%nat with false by (symmetry; apply Nat.ltb_ge; lia); lia | replace (r mod ins <? r mod ins + 1)%nat with true by (symmetry; apply Nat.ltb_lt; lia); lia]. }
      rewrite (odd_step _ _ _ period_pos). now rewrite Bool.xorb_assoc.
    + rewrite Ko by exact N. rewrite F by exact Hi. do 5 f_equal. unfold reads_of. rewrite Sm, Sd. destruct (Nat.eqb_spec (r mod ins) (ins - 1)) as [E | E].
      * replace (i <? 0)%nat with false by (symmetry; apply Nat.ltb_ge; lia). replace (i <? r mod ins)%nat with true by (symmetry; apply Nat.ltb_lt; lia). lia.
      * destruct (Nat.ltb_spec i (r mod ins)), (Nat.ltb_spec i (r mod ins + 1)); lia.
Qed.
End Regular.
(** All choppers of the columns (rows) switch regularly: in any run of transfers starting with the
    first column, the one of column [i] has switched once for every whole period in the matrix
    cycles it was read in. *)
Theorem C75_regular : forall t p count curs s s', let ins := in_size t (s_c s) in let ns := chop_period p in
  tp_random t = false -> tp_reads t = 1%nat -> 0 < cp_in_prob p -> cp_in_random p = false -> (0 < ins)%nat -> (0 < length (k_slices (s_c s)))%nat -> nth 0 (k_slices (s_c s)) 0%nat = 0%nat -> length (s_in s) = ins ->
  (forall c cur, List.In cur curs -> k_gam c = k_gam (s_c s) -> buffer_lr t c 0 cur <> 0) -> chop_run t p count curs s s' ->
  s_cnt s' = (s_cnt s + length curs / ins)%nat /\ nth 0 (k_slices (s_c s')) 0%nat = (length curs mod ins)%nat /\
  forall i, (i < ins)%nat -> flag (s_in s') i = xorb (flag (s_in s) i) (Nat.odd ((s_cnt s + reads_of ins (length curs) i) / ns - s_cnt s / ns)).
Proof.
  intros t p count curs s s' ins ns Rn Rd Pp Ri Ip Ls S0 Li Hl Y.
  assert (G : forall curs r z z', (forall c cur, List.In cur curs -> k_gam c = k_gam (s_c s) -> buffer_lr t c 0 cur <> 0) -> reg_inv t p ins (s_cnt s) (flag (s_in s)) (k_gam (s_c s)) r z -> chop_run t p count curs z z' ->
    reg_inv t p ins (s_cnt s) (flag (s_in s)) (k_gam (s_c s)) (r + length curs) z').
  { clear - Rn Rd Pp Ri Ip. intros curs. induction curs as [|cur curs IH]; intros r z z' Hl H Y.
    - apply yields_ret in Y. subst. cbn [length]. now rewrite Nat.add_0_r.
    - unfold chop_run in Y. cbn [foldMM] in Y. apply yields_bind in Y as (z1 & Y1 & Y). cbn [length]. replace (r + S (length curs))%nat with (S r + length curs)%nat by lia. apply (IH (S r) z1); [intros; apply Hl; auto; now right | | exact Y].
      eapply reg_step; eauto. intros c Hc. apply Hl; [now left | exact Hc]. }
  destruct (G curs 0%nat s s' Hl) as (_ & _ & _ & _ & A & B & C); [|exact Y|].
  - split; [reflexivity|]. split; [exact Ls|]. split; [reflexivity|]. split; [exact Li|]. split; [rewrite S0; symmetry; now apply Nat.mod_0_l; lia|]. split; [rewrite Nat.div_0_l by lia; lia|]. intros i Hi. unfold reads_of. rewrite Nat.div_0_l, Nat.mod_0_l by lia. cbn [Nat.ltb Nat.leb].
    rewrite !Nat.add_0_r, Nat.sub_diag. cbn. now rewrite Bool.xorb_false_r.
  - cbn [Nat.add] in *. auto.
Qed.
(** The period is the inverse probability, rounded up, and at least 2 ... *)
Theorem C75_period : forall p, 0 < cp_in_prob p -> (2 <= chop_period p)%nat /\ 1 / cp_in_prob p <= INR (chop_period p) /\ ((2 < chop_period p)%nat -> INR (chop_period p) < 1 / cp_in_prob p + 1).
Proof.
  intros p H. unfold chop_period. pose proof (ceilZ_spec (1 / cp_in_prob p)) as C. assert (I : 0 < 1 / cp_in_prob p) by (apply Rdiv_lt_0_compat; lra). split; [lia|]. rewrite INR_IZR_INZ, Z2Nat.id by lia. split.
  - eapply Rle_trans; [apply C | apply IZR_le; lia].
  - intros L. replace (Z.max (ceilZ (1 / cp_in_prob p)) 2) with (ceilZ (1 / cp_in_prob p)) by lia. lra.
Qed.
(** ... not at most 2, as documented: with probability 1/10 it is 10. *)
Theorem C75_documented_period_refuted : chop_period (cpar_ex (1/10) false) = 10%nat /\ Rmin (1 / (1/10)) 2 = 2.
Proof.
  split; [|rewrite Rmin_right; lra]. unfold chop_period. cbn [cpar_ex cp_in_prob]. pose proof (ceilZ_spec (1 / (1/10))) as [A B]. assert (C1 : (ceilZ (1 / (1/10)) < 11)%Z) by (apply lt_IZR; lra). assert (C2 : (9 < ceilZ (1 / (1/10)))%Z) by (apply lt_IZR; lra).
  replace (ceilZ (1 / (1/10))) with 10%Z by lia. reflexivity.
Qed.

(** Random choppers switch after a read with the given probability (up to the resolution of the
    random numbers), the others not at all. *)
Theorem C75_random : forall N G t p count cur s, let i := nth 0 (k_slices (s_c s)) 0%nat in
  (0 < N)%nat -> G <> [] -> (forall w x, total (tp_read t w x)) -> tp_random t = false -> tp_reads t = 1%nat -> (i < in_size t (s_c s))%nat -> length (s_in s) = in_size t (s_c s) -> buffer_lr t (s_c s) 0 cur <> 0 ->
  cp_in_random p = true -> 0 < cp_in_prob p <= 1 ->
  Rabs (expect N G (chop_transfer t p count 1 0 cur s) (fun s' => if Bool.eqb (flag (s_in s') i) (flag (s_in s) i) then 0 else 1) - cp_in_prob p) <= 1 / INR (S N) /\
  (forall s' k, yields (chop_transfer t p count 1 0 cur s) s' -> k <> i -> flag (s_in s') k = flag (s_in s) k).
Proof.
  intros N G t p count cur s i HN HG Tr Rn Rd Hi Li L Ri [P0 P1]. split.
  - pose proof (chop_transfer_total t p count cur s Tr Rn Rd Hi) as T. set (F := fun s' => if Bool.eqb (flag (s_in s') i) (flag (s_in s) i) then 0 else 1).
    unfold chop_transfer, transfer_g. cbv zeta. rewrite Rn. cbn [bindM]. rewrite Rd. fold i. replace (Nat.min 1 (in_size t (s_c s))) with 1%nat by lia.
    replace (in_size t (s_c s) - i <? 1)%nat with false by (symmetry; apply Nat.ltb_ge; lia). rewrite expect_bind. cbn [expect]. change (fun a => F (put_c a _)) with F. rewrite buffer_lr_eq.
    set (W := fun a : cstate => F a). unfold chop_read. rewrite (proj2 (Reqb_false _ 0) L). cbn [Nat.eqb negb andb]. cbv zeta. rewrite expect_bind.
    assert (Inner : forall s1, s_in s1 = s_in s -> expect N G (s2 <~ flip_in p i s1 ;; (if (i =? in_size t (s_c s) - 1)%nat then
      s3 <~ (if Rltb 0 (cp_out_prob p) then flip_out p (out_size t (s_c s)) s2 else Ret s2) ;; Ret {| s_b := s_b s3; s_in := s_in s3; s_out := s_out s3; s_cnt := S (s_cnt s3) |} else Ret s2)) F = prob_below N (cp_in_prob p)).
    { intros s1 E1. rewrite expect_bind. rewrite (expect_ext _ _ _ _ F).
      - unfold flip_in. rewrite (proj2 (Rltb_true 0 _) P0), Ri. cbn [bindM expect unif]. rewrite <- avg_grid_below. apply avg_ext. intros u _. unfold F. destruct (Rltb u (cp_in_prob p)); cbn [s_in b2R]; rewrite E1.
        + unfold flip_at. rewrite flag_set, Nat.eqb_refl, (proj2 (Nat.ltb_lt _ _)) by (rewrite Li; exact Hi). cbn [andb]. destruct (flag (s_in s) i); reflexivity.
        + rewrite Bool.eqb_reflx. reflexivity.
      - intros s2 _. destruct (_ =? _)%nat; [|reflexivity]. rewrite expect_bind. cbn [expect]. unfold F. cbn [s_in]. rewrite (expect_ext _ _ _ _ (fun _ => F s2)).
        + apply expect_const; [exact HG|]. destruct (Rltb 0 (cp_out_prob p)); [|apply total_ret]. unfold flip_out. apply total_bind; [|intros; apply total_ret]. apply total_foldMM. intros. apply total_bind; [apply total_unif; intros; apply total_ret | intros; apply total_ret].
        + intros s3 Y3. assert (E3 : s_in s3 = s_in s2). { destruct (Rltb 0 (cp_out_prob p)); [apply flip_out_same in Y3 as (_ & E3 & _); exact E3 | apply yields_ret in Y3; now subst]. } now rewrite E3. }
    rewrite (expect_ext _ _ _ _ (fun _ => prob_below N (cp_in_prob p))).
    + rewrite expect_const; [apply prob_below_close; [exact HN | lra] | exact HG|]. unfold read_plain, read_slice. cbv zeta. apply total_bind; [|intros; apply total_ret]. apply total_bind; [apply Tr | intros; apply total_ret].
    + intros out _. rewrite expect_bind. rewrite (expect_ext _ _ _ _ (fun _ => prob_below N (cp_in_prob p))).
      * apply expect_const; [exact HG|]. destruct (existsb _ _); [|apply total_ret]. unfold write_slice, upd_part. apply total_bind; [|intros; apply total_ret]. apply upd_nth_total. intros q. apply total_bind; [|intros; apply total_ret]. destruct (tp_columns t); apply update_vector_total.
      * intros c1 _. apply Inner. reflexivity.
  - intros s' k Y Nk. destruct (chop_step t p count cur s s' Rn Rd Hi Y) as (s1 & Y1 & ->). apply chop_read_mid in Y1 as (_ & _ & Ko & _); [|exact L]. cbn [s_in put_c]. now apply Ko.
Qed.
(** The out-choppers only switch after the last column (row) was read, and not at all with
    probability 0. *)
Theorem C75_out : forall t p count cur s s', let i := nth 0 (k_slices (s_c s)) 0%nat in
  tp_random t = false -> tp_reads t = 1%nat -> (i < in_size t (s_c s))%nat -> yields (chop_transfer t p count 1 0 cur s) s' ->
  cp_out_prob p <= 0 \/ i <> (in_size t (s_c s) - 1)%nat -> s_out s' = s_out s.
Proof.
  intros t p count cur s s' i Rn Rd Hi Y H. destruct (chop_step t p count cur s s' Rn Rd Hi Y) as (s1 & Y1 & ->). cbn [s_out put_c]. destruct (Req_EM_T (buffer_lr t (s_c s) 0 cur) 0) as [Z | L].
  - unfold chop_read in Y1. rewrite (proj2 (Reqb_true _ 0) Z) in Y1. apply yields_ret in Y1. now subst.
  - apply chop_read_mid in Y1 as (_ & _ & _ & _ & _ & _ & O & _); [|exact L]. now apply O.
Qed.
Example C75_example : let t := tpar_ex [1; 1] false [1; 0] in let p := cpar_ex (1/10) false in let s := cstate_ex true in
  (0 < length (k_slices (s_c s)))%nat /\ nth 0 (k_slices (s_c s)) 0%nat = 0%nat /\ length (s_in s) = in_size t (s_c s) /\ (forall c cur, List.In cur [1; 1; 1] -> k_gam c = k_gam (s_c s) -> buffer_lr t c 0 cur <> 0) /\ exists s', chop_run t p 1 [1; 1; 1] s s'.
Proof.
  cbv zeta. split; [cbn; lia|]. split; [reflexivity|]. split; [reflexivity|]. split.
  - intros c cur _ G. unfold buffer_lr. rewrite G. cbn [tpar_ex tp_lrs tp_scale cstate_ex s_c s_b bstate_ex b_c comp1 k_gam nth]. rewrite (proj2 (Rltb_false 0 0)) by lra. cbn [andb]. lra.
  - unfold chop_run. assert (H : forall curs s, in_size (tpar_ex [1; 1] false [1; 0]) (s_c s) = 1%nat -> nth 0 (k_slices (s_c s)) 0%nat = 0%nat -> exists s', yields (foldMM (fun s cur => chop_transfer (tpar_ex [1; 1] false [1; 0]) (cpar_ex (1/10) false) 1 1 0 cur s) curs s) s'); [|apply H; reflexivity].
    intros curs. induction curs as [|cur curs IH]; intros s I0 S0; [eexists; constructor|]. set (tt := tpar_ex [1; 1] false [1; 0]) in *. assert (Hi : (nth 0 (k_slices (s_c s)) 0 < in_size tt (s_c s))%nat) by (rewrite I0, S0; lia).
    destruct (total_yields _ (chop_transfer_total tt (cpar_ex (1/10) false) 1 cur s ltac:(intros; apply total_ret) eq_refl eq_refl Hi)) as (s1 & Y1).
    pose proof (chop_transfer_rest _ _ _ _ _ _ _ _ Y1) as (_ & _ & W & _). destruct (chop_step tt _ _ _ s s1 eq_refl eq_refl Hi Y1) as (s2 & Y2 & E).
    destruct (IH s1) as (s' & Y'); [unfold in_size in *; rewrite W; exact I0 | |exists s'; cbn [foldMM]; apply yields_bind; eauto].
    rewrite E. cbn [s_c put_c s_b with_c b_c k_slices with_slices]. rewrite set_nth_nth, I0, Nat.mod_1_r, Nat.eqb_refl. cbn [andb]. destruct (Nat.ltb_spec 0 (length (k_slices (s_c s2)))) as [H | H]; [reflexivity|]. destruct (k_slices (s_c s2)); [reflexivity | cbn in H; lia].
Qed.

Print Assumptions C75_regular.
Print Assumptions C75_period.
Print Assumptions C75_documented_period_refuted.
Print Assumptions C75_random.
Print Assumptions C75_out.
