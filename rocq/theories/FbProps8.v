(** * The levels of the converters (C103) *)
From Verif Require Import Prelude Rand CompModel PulseModel PulseProofs FbModel FbSpec FbProofs FbProps FbProps2 FbProps3.

(** a converter with [2 m + 1] levels: the resolution is given as [1 / (2 m)] of the range or as the
    number of steps [2 m] *)
Definition steps (res : R) (m : positive) : Prop := res = 1 / IZR (2 * Zpos m) \/ res = IZR (2 * Zpos m).
(** one of the [2 m + 1] equally spaced values in [-b .. b] *)
Definition level (b : R) (m : positive) (v : R) : Prop := exists k, (- Zpos m <= k <= Zpos m)%Z /\ v = IZR k * (b / IZR (Zpos m)).

Lemma check_res_steps res m b : steps res m -> check_res res * (2 * b) = b / IZR (Zpos m).
Proof.
  intros H. assert (P : 1 <= IZR (Zpos m)) by (apply IZR_le; lia). assert (E2 : IZR (2 * Zpos m) = 2 * IZR (Zpos m)) by (rewrite mult_IZR; reflexivity). unfold steps in H. rewrite E2 in H. set (q := IZR (Zpos m)) in *. unfold check_res. cbv zeta. destruct H as [-> | ->].
  - assert (B : 0 < 1 / (2 * q) < 1). { split; [apply Rdiv_lt_0_compat; lra|]. apply (Rmult_lt_reg_r (2 * q)); [lra|]. unfold Rdiv. rewrite Rmult_assoc, Rinv_l by lra. lra. } rewrite (proj2 (Rltb_false (1 / (2 * q)) 0)) by lra. rewrite (proj2 (Rltb_false 1 (1 / (2 * q)))) by lra. field. lra.
  - rewrite (proj2 (Rltb_false (2 * q) 0)) by lra. rewrite (proj2 (Rltb_true 1 (2 * q))) by lra. field. lra.
Qed.
Lemma clipped_level b m k : 0 < b -> level b m (clipped (Some b) (IZR k * (b / IZR (Zpos m)))).
Proof.
  intros P. cbn [clipped]. destruct (Rle_dec b 0); [lra|]. assert (Q : 1 <= IZR (Zpos m)) by (apply IZR_le; lia). set (st := b / IZR (Zpos m)). assert (Ps : 0 < st) by (apply Rdiv_lt_0_compat; lra). assert (Eb : b = IZR (Zpos m) * st) by (unfold st; field; lra).
  destruct (Z_le_gt_dec k (Zpos m)) as [H1 | H1]; [destruct (Z_le_gt_dec (- Zpos m) k) as [H2 | H2]|].
  - exists k. split; [lia|]. apply IZR_le in H1, H2. rewrite opp_IZR in H2. fold st. rewrite Rmin_right by (rewrite Eb at 1; nra). apply Rmax_right. rewrite Eb at 1. nra.
  - exists (- Zpos m)%Z. split; [lia|]. fold st. rewrite opp_IZR. apply Z.gt_lt, IZR_lt in H2. rewrite opp_IZR in H2. rewrite Rmin_right by (rewrite Eb at 1; nra). rewrite Rmax_left by (rewrite Eb at 1; nra). rewrite Eb at 1. ring.
  - exists (Zpos m). split; [lia|]. fold st. apply Z.gt_lt, IZR_lt in H1. rewrite Rmin_left by (rewrite Eb at 1; nra). rewrite Rmax_right by lra. rewrite Eb at 1. ring.
Qed.
Lemma init_io_ok bwd out ib ob p q : init_io bwd out ib ob p = Ok q -> is_perf p = false ->
  f_inp_res q = check_res (f_inp_res p) * (2 * ib) /\ f_out_res q = check_res (f_out_res p) * (2 * ob) /\
  f_inp_bound q = (if Rleb ib 0 then None else Some ib) /\ f_out_bound q = (if Rleb ob 0 then None else Some ob) /\
  f_inp_noise q = f_inp_noise p /\ f_inp_asym q = f_inp_asym p.
Proof. unfold init_io. intros H Pp. rewrite Pp in H. destruct (match f_nm p with NmNone => false | _ => negb (Reqb ib 1) end); [discriminate|]. destruct (match f_voff_vec p with [] => false | v => negb (Nat.eqb (length v) out) end); [discriminate|]. injection H as <-. repeat split. Qed.
(** C103: an input converter with [2 m + 1] levels (the default 7 bits: [m = 63]) passes only these levels *)
Theorem C103_dac_levels : forall bwd out ib ob p q s x x' m, init_io bwd out ib ob p = Ok q -> f_perfect p = false -> f_mv p <> MvIdeal -> 0 < ib -> steps (f_inp_res p) m -> quiet_input p ->
  yields (prepare q s x) x' -> forall u, List.In u x' -> level ib m u.
Proof.
  intros bwd out ib ob p q s x x' m I Pf Mv Pb St [Qn Qa] Y u Hu. assert (Pp : is_perf p = false) by (apply is_perf_false; split; auto). destruct (init_io_ok _ _ _ _ _ _ I Pp) as (R1 & _ & B1 & _ & N1 & A1). rewrite (check_res_steps _ m) in R1 by auto. rewrite (proj2 (Rleb_false _ _) Pb) in B1.
  unfold prepare in Y. apply yields_mapMM in Y. induction Y as [|a b x x' H F IH]; [destruct Hu|]. destruct Hu as [<- | Hu]; [|auto]. unfold prep_elem in H. apply yields_bind in H as (t & Y1 & H). rewrite B1, N1, A1 in H. rewrite (proj2 (Rltb_false _ _) Qn), (proj2 (Reqb_true _ _) Qa) in H. cbn [negb] in H. apply yields_bind in H as (t2 & Y2 & H). apply yields_ret in Y2, H. subst t2 b. assert (Ps : 0 < f_inp_res q) by (rewrite R1; apply Rdiv_lt_0_compat; [lra | apply IZR_lt; lia]). destruct (disc_grid _ _ _ _ Ps Y1) as (k & ->). rewrite R1. rewrite (clip_clipped (Some ib)). now apply clipped_level.
Qed.
(** C103: likewise the output converter, with any noise and nonlinearity before it; a separate conversion of
    positive and negative inputs adds two levels *)
Theorem C103_adc_levels : forall bwd out ib ob p q v W Wn s x o m, init_io bwd out ib ob p = Ok q -> f_perfect p = false -> f_mv p <> MvIdeal -> f_mv p <> MvSepSum -> 0 < ob -> steps (f_out_res p) m ->
  yields (analog_mv q v W Wn s x) o -> forall u, List.In u (snd o) -> level ob m u.
Proof.
  intros bwd out ib ob p q v W Wn s x o m I Pf Mv Ms Pb St Y u Hu. assert (Pp : is_perf p = false) by (apply is_perf_false; split; auto). destruct (init_io_ok _ _ _ _ _ _ I Pp) as (_ & R1 & _ & B1 & _ & _). rewrite (check_res_steps _ m) in R1 by auto. rewrite (proj2 (Rleb_false _ _) Pb) in B1.
  assert (Em : f_mv q = f_mv p) by (unfold init_io in I; rewrite Pp in I; destruct (match f_nm p with NmNone => false | _ => negb (Reqb ib 1) end); [discriminate|]; destruct (match f_voff_vec p with [] => false | v => negb (Nat.eqb (length v) out) end); [discriminate|]; injection I as <-; reflexivity).
  assert (G : exists y, yields (finalize q v y) o). { unfold analog_mv in Y. rewrite Em in Y. apply yields_bind in Y as (x' & _ & Y). destruct (f_mv p); [now destruct Mv | | | now destruct Ms].
    - apply yields_bind in Y as (y & _ & Y). eauto.
    - apply yields_bind in Y as (y1 & _ & Y). apply yields_bind in Y as (y2 & _ & Y). eauto. }
  destruct G as (y & G). apply (In_nth _ _ 0) in Hu as (i & Hi & <-). rewrite (finalize_len _ _ _ _ G) in Hi. destruct (finalize_out _ _ _ _ i G Hi) as (t & w & Y1 & ->). assert (Ps : 0 < f_out_res q) by (rewrite R1; apply Rdiv_lt_0_compat; [lra | apply IZR_lt; lia]). destruct (disc_grid _ _ _ _ Ps Y1) as (k & ->). rewrite R1, B1. now apply clipped_level.
Qed.
(** C103: a bound of 0 or less switches off the bound, and the converter with it *)
Theorem C103_no_bound_no_steps : forall bwd out ib ob p q, init_io bwd out ib ob p = Ok q -> f_perfect p = false -> f_mv p <> MvIdeal ->
  (ib <= 0 -> unlimited (f_inp_bound q) /\ f_inp_res q <= 0) /\ (ob <= 0 -> unlimited (f_out_bound q) /\ f_out_res q <= 0).
Proof.
  intros bwd out ib ob p q I Pf Mv. assert (Pp : is_perf p = false) by (apply is_perf_false; split; auto). destruct (init_io_ok _ _ _ _ _ _ I Pp) as (R1 & R2 & B1 & B2 & _). assert (C : forall r, 0 <= check_res r). { intros r. unfold check_res. cbv zeta. set (r' := if Rltb r 0 then 0 else r). assert (0 <= r') by (unfold r'; rcase; lra). destruct (Rltb 1 r') eqn:E; auto. apply Rltb_true in E. apply Rlt_le, Rdiv_lt_0_compat; lra. }
  pose proof (C (f_inp_res p)). pose proof (C (f_out_res p)). split; intros L; [rewrite B1, R1 | rewrite B2, R2]; rewrite (proj2 (Rleb_true _ _) L); split; cbn; auto; nra.
Qed.
(** C103: noise management is refused with a bound on the inputs other than 1, and user defined voltage
    offsets with the wrong number; nothing else is refused *)
Theorem C103_refused : forall bwd out ib ob p, init_io bwd out ib ob p = Raise RuntimeError <->
  f_perfect p = false /\ f_mv p <> MvIdeal /\ ((f_nm p <> NmNone /\ ib <> 1) \/ (f_voff_vec p <> [] /\ length (f_voff_vec p) <> out)).
Proof.
  intros bwd out ib ob p. unfold init_io. destruct (is_perf p) eqn:Pp.
  - split; [discriminate|]. intros (A & B & _). rewrite is_perf_false in Pp by (split; auto). discriminate.
  - apply is_perf_crossbar in Pp as [A B]. destruct (match f_nm p with NmNone => false | _ => negb (Reqb ib 1) end) eqn:E1.
    + split; auto. intros _. split; auto. split; auto. left. split; [destruct (f_nm p); discriminate|]. assert (E : Reqb ib 1 = false) by (destruct (f_nm p); try discriminate; destruct (Reqb ib 1); auto; discriminate). now apply Reqb_false in E.
    + assert (N1 : ~ (f_nm p <> NmNone /\ ib <> 1)). { intros [H1 H2]. apply Reqb_false in H2. rewrite H2 in E1. destruct (f_nm p); try discriminate. now apply H1. }
      destruct (f_voff_vec p) as [|a l] eqn:Ev; [split; [discriminate | intros (_ & _ & [H | [H _]]); [tauto | now destruct H]]|]. destruct (Nat.eqb_spec (length (a :: l)) out) as [E2 | E2]; cbn [negb].
      * split; [discriminate | intros (_ & _ & [H | [_ H]]); tauto].
      * split; auto. intros _. split; auto. split; auto. right. split; [discriminate | exact E2].
Qed.
(** C103: a backward pass never uses bound management *)
Theorem C103_backward_no_bound_management : forall out ib ob p q, init_io true out ib ob p = Ok q -> f_perfect p = false -> f_mv p <> MvIdeal -> f_bm q = BmNone.
Proof.
  intros out ib ob p q I Pf Mv. assert (Pp : is_perf p = false) by (apply is_perf_false; split; auto). unfold init_io in I. rewrite Pp in I. destruct (match f_nm p with NmNone => false | _ => negb (Reqb ib 1) end); [discriminate|]. destruct (match f_voff_vec p with [] => false | v => negb (Nat.eqb (length v) out) end); [discriminate|]. injection I as <-. reflexivity.
Qed.
(** the defaults of the library: 7 bits in, 9 bits out, bounds 1 and 12 *)
Definition io_default : fbio :=
  {| f_perfect := false; f_mv := MvOne; f_wn := WnNone; f_irdrop := 0; f_irG := 1; f_voff_std := 0; f_voff_vec := []; f_wmin := -1; f_rs := 0; f_rsmax := None;
     f_inp_asym := 0; f_out_asym := 0; f_wasym := 0; f_inp_bound := None; f_inp_res := 1/126; f_inp_sto := false; f_inp_noise := 0;
     f_out_noise := 6/100; f_out_noise_std := 0; f_w_noise := 0; f_out_bound := None; f_out_res := 1/510; f_out_sto := false; f_out_scale := 1;
     f_nl := 0; f_nl_std := 0; f_nl_vec := []; f_slope := 0; f_nm := NmAbsMax; f_nm_thres := 0; f_nm_wmax := 1; f_nm_decay := 0;
     f_bm := BmIter; f_bm_neg := true; f_bm_factor := 1000; f_bm_res := 1/4 |}.
Example C103_nontrivial : (exists q, init_io false 3 1 12 io_default = Ok q) /\ steps (f_inp_res io_default) 63 /\ steps (f_out_res io_default) 255 /\ quiet_input io_default /\ level 1 63 (2/63) /\ ~ level 1 63 (1/2).
Proof.
  split; [|repeat split].
  - unfold init_io, is_perf. cbn. rewrite (proj2 (Reqb_true 1 1)) by auto. cbn. eauto.
  - left. cbn. lra.
  - left. cbn. lra.
  - cbn. lra.
  - exists 2%Z. split; [lia | lra].
  - intros (k & _ & E). assert (H : IZR (2 * k) = IZR 63) by (rewrite mult_IZR; lra). apply eq_IZR in H. lia.
Qed.

Print Assumptions C103_dac_levels.
Print Assumptions C103_adc_levels.
Print Assumptions C103_no_bound_no_steps.
Print Assumptions C103_refused.
Print Assumptions C103_backward_no_bound_management.
