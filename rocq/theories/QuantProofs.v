(** * Quantizers: proofs *)
From Verif Require Import Prelude ConvModel ConvProofs QuantModel QuantSpec.

(** ** Uniform grid with step [s] and levels [a .. b] *)
Definition gridq (s : R) (a b : Z) (x : R) : R := s * IZR (Z.min (Z.max (rhe (x / s)) a) b).
Lemma IZR_min a b : IZR (Z.min a b) = Rmin (IZR a) (IZR b).
Proof. destruct (Z.min_spec a b) as [[H ->] | [H ->]]. - apply IZR_lt in H. mm. - apply IZR_le in H. mm. Qed.
Lemma IZR_max a b : IZR (Z.max a b) = Rmax (IZR a) (IZR b).
Proof. destruct (Z.max_spec a b) as [[H ->] | [H ->]]. - apply IZR_lt in H. mm. - apply IZR_le in H. mm. Qed.
Lemma grid_err s a b x : 0 < s -> (a <= b)%Z -> s * (IZR a - 1/2) <= x <= s * (IZR b + 1/2) -> Rabs (gridq s a b x - x) <= s / 2.
Proof.
  intros Hs Hab [H1 H2]. unfold gridq. set (r := x / s).
  assert (E : x = s * r) by (unfold r; field; lra). rewrite E in *.
  assert (IZR a - 1/2 <= r) by (apply Rmult_le_reg_l with s; lra).
  assert (r <= IZR b + 1/2) by (apply Rmult_le_reg_l with s; lra).
  pose proof (rhe_err r) as K. apply IZR_le in Hab. rewrite IZR_min, IZR_max. rewrite <- Rmult_minus_distr_l, Rabs_mult, (Rabs_right s) by lra.
  replace (s / 2) with (s * (1/2)) by field. apply Rmult_le_compat_l; [lra|]. mm.
Qed.
Lemma grid_range s a b x : 0 < s -> (a <= b)%Z -> s * IZR a <= gridq s a b x <= s * IZR b.
Proof.
  intros Hs Hab. unfold gridq. apply IZR_le in Hab as Hab'. split; apply Rmult_le_compat_l; try lra; apply IZR_le; lia.
Qed.
Lemma grid_mono s a b x y : 0 < s -> x <= y -> gridq s a b x <= gridq s a b y.
Proof.
  intros Hs H. unfold gridq. apply Rmult_le_compat_l; [lra|]. apply IZR_le.
  assert (x / s <= y / s). { unfold Rdiv. apply Rmult_le_compat_r; [|auto]. left. now apply Rinv_0_lt_compat. }
  pose proof (rhe_mono _ _ H0). lia.
Qed.
Lemma grid_fix s a b k : 0 < s -> (a <= k <= b)%Z -> gridq s a b (s * IZR k) = s * IZR k.
Proof. intros Hs H. unfold gridq. replace (s * IZR k / s) with (IZR k) by (field; lra). rewrite rhe_IZR. do 2 f_equal. lia. Qed.
Lemma grid_idem s a b x : 0 < s -> (a <= b)%Z -> gridq s a b (gridq s a b x) = gridq s a b x.
Proof. intros Hs H. unfold gridq at 2 3. apply grid_fix; auto. lia. Qed.

Lemma q_one_grid c sg p x : q_one c sg p x = gridq (q_scale c p) (int_min c sg - q_zero c p) (int_max c sg - q_zero c p) x.
Proof. unfold q_one, to_int, gridq. do 2 f_equal. lia. Qed.

Lemma pow2_Z n : IZR (2 ^ Z.of_nat n) = 2 ^ n.
Proof. rewrite <- pow_IZR. reflexivity. Qed.
Lemma pow2_ge1 n : (1 <= 2 ^ Z.of_nat n)%Z.
Proof. pose proof (Z.pow_pos_nonneg 2 (Z.of_nat n)). lia. Qed.
Lemma int_max_real c sg : q_sane c -> IZR (int_max c sg) = levels_up c sg.
Proof.
  intros [_ H]. unfold int_max, levels_up. destruct (qc_meth c); [|destruct sg].
  - rewrite minus_IZR, pow2_Z. reflexivity.
  - replace (Z.of_nat (qc_bits c) - 1)%Z with (Z.of_nat (qc_bits c - 1)) by lia. rewrite minus_IZR, pow2_Z. reflexivity.
  - rewrite Z.sub_0_r, minus_IZR, pow2_Z. reflexivity.
Qed.
Lemma int_max_nonneg c sg : q_sane c -> (0 <= int_max c sg)%Z.
Proof.
  intros [_ H]. unfold int_max. destruct (qc_meth c); [|destruct sg].
  - pose proof (pow2_ge1 (qc_bits c)). lia.
  - replace (Z.of_nat (qc_bits c) - 1)%Z with (Z.of_nat (qc_bits c - 1)) by lia. pose proof (pow2_ge1 (qc_bits c - 1)). lia.
  - rewrite Z.sub_0_r. pose proof (pow2_ge1 (qc_bits c)). lia.
Qed.
Lemma int_min_nonpos c sg : (1 <= qc_bits c)%nat -> (int_min c sg <= 0)%Z.
Proof.
  intros H. unfold int_min. destruct (qc_meth c); [lia|]. destruct sg; [|lia].
  replace (Z.of_nat (qc_bits c) - 1)%Z with (Z.of_nat (qc_bits c - 1)) by lia. pose proof (pow2_ge1 (qc_bits c - 1)). lia.
Qed.

(** parameters made by [set_quant_range] *)
Definition mk_par (c : qcfg) (sg : bool) (mn mx : R) : qpar := match qc_meth c with Asym => q_par_asym c mn mx | Sym => q_par_sym c sg mn mx end.
Lemma mk_par_ok c sg mn mx : q_sane c -> int_max c sg <> 0%Z -> (qc_meth c = Asym -> sg = false) ->
  let p := mk_par c sg mn mx in let s := q_scale c p in
  s = step c sg mn mx /\ 0 < s /\ (int_min c sg <= q_zero c p <= int_max c sg)%Z
  /\ (forall x, covers c sg mn mx x ->
      s * (IZR (int_min c sg - q_zero c p) - 1/2) <= x <= s * (IZR (int_max c sg - q_zero c p) + 1/2)).
Proof.
  intros S Nz Hsg p s. pose proof (int_max_nonneg c sg S) as Np. pose proof (int_max_real c sg S) as NR.
  assert (N1 : 1 <= IZR (int_max c sg)) by (apply (IZR_le 1); lia).
  set (N := IZR (int_max c sg)) in *. destruct S as [He Hb].
  pose proof (int_min_nonpos c sg Hb) as Im.
  assert (Rm : Rmin mn 0 <= 0) by apply Rmin_r. assert (RM : qc_eps c <= Rmax mx (qc_eps c)) by apply Rmax_r.
  set (m := Rmin mn 0) in *. set (M := Rmax mx (qc_eps c)) in *.
  destruct (qc_meth c) eqn:Em.
  - (* asymmetric *)
    specialize (Hsg eq_refl). subst sg.
    set (d := (M - m) / N). assert (Dp : 0 < d) by (apply Rdiv_lt_0_compat; lra).
    assert (Es : s = if qc_log c then d else Rmax d (qc_eps c)).
    { unfold s, p, mk_par. rewrite Em. unfold q_par_asym, q_scale. cbn [qp_delta]. fold m. change (fix_max (qc_eps c) mx) with M. change (fix_min mn) with m. fold N. fold d.
      destruct (qc_log c); [apply exp_ln; auto|reflexivity]. }
    assert (Sd : d <= s) by (rewrite Es; destruct (qc_log c); [lra|apply Rmax_l]).
    split. { rewrite Es. unfold step. rewrite Em, <- NR. reflexivity. }
    split; [lra|].
    assert (Ez : qp_zf p = - m / d).
    { unfold p, mk_par. rewrite Em. reflexivity. }
    set (z := - m / d) in *.
    assert (Zm : - m = z * d) by (unfold z; field; lra).
    assert (Z0 : 0 <= z) by (apply Rmult_le_reg_r with d; lra).
    assert (ZN : z <= N). { apply Rmult_le_reg_r with d; [lra|]. rewrite <- Zm. replace (N * d) with (M - m) by (unfold d; field; lra). lra. }
    assert (R0 : (0 <= rhe z)%Z) by (rewrite <- (rhe_IZR 0); apply rhe_mono; exact Z0).
    assert (RN : (rhe z <= int_max c false)%Z) by (rewrite <- (rhe_IZR (int_max c false)); apply rhe_mono; exact ZN).
    assert (Im0 : int_min c false = 0%Z) by (unfold int_min; now rewrite Em).
    assert (Zq : q_zero c p = rhe z) by (unfold q_zero; rewrite Em, Ez, Im0; lia).
    split; [rewrite Zq; lia|]. intros x Hx. unfold covers in Hx. rewrite Em in Hx. fold m M in Hx.
    rewrite Zq, Im0. rewrite !minus_IZR. fold N. pose proof (rhe_err z) as Ke.
    assert (Mx : M = (N - z) * d). { assert (N * d = M - m) by (unfold d; field; lra). lra. }
    assert (Q1 : z * d <= z * s) by (apply Rmult_le_compat_l; lra). assert (Q2 : (N - z) * d <= (N - z) * s) by (apply Rmult_le_compat_l; lra).
    assert (Sp : 0 <= s) by lra. assert (K1 : z - 1/2 <= IZR (rhe z) <= z + 1/2) by (split; mm).
    assert (Q3 : s * (0 - IZR (rhe z) - 1/2) <= s * (- z)) by (apply Rmult_le_compat_l; lra).
    assert (Q4 : s * (N - z) <= s * (N - IZR (rhe z) + 1/2)) by (apply Rmult_le_compat_l; lra). lra.
  - (* symmetric *)
    set (A := Rmax (Rabs m) M). assert (MA : M <= A) by apply Rmax_r. set (d := A / N). assert (Dp : 0 < d) by (apply Rdiv_lt_0_compat; lra).
    assert (Es : s = if qc_log c then d else Rmax d (qc_eps c)).
    { unfold s, p, mk_par. rewrite Em. unfold q_par_sym, q_scale. cbn [qp_delta]. change (fix_max (qc_eps c) mx) with M. change (fix_min mn) with m. fold A N. fold d.
      destruct (qc_log c); [apply exp_ln; auto|reflexivity]. }
    assert (Sd : d <= s) by (rewrite Es; destruct (qc_log c); [lra|apply Rmax_l]).
    split. { rewrite Es. unfold step. rewrite Em, <- NR. reflexivity. }
    split; [lra|]. assert (Zq : q_zero c p = 0%Z) by (unfold q_zero; now rewrite Em). rewrite Zq. split; [lia|].
    intros x Hx. unfold covers in Hx. rewrite Em in Hx. fold m M A in Hx. rewrite !Z.sub_0_r. fold N.
    assert (AN : A = N * d) by (unfold d; field; lra). assert (Q : N * d <= N * s) by (apply Rmult_le_compat_l; lra).
    assert (Q4 : s * N <= s * (N + 1/2)) by (apply Rmult_le_compat_l; lra).
    split; [|lra]. destruct sg.
    + assert (IZR (int_min c true) <= - N).
      { unfold N. rewrite <- opp_IZR. apply IZR_le. unfold int_min, int_max. rewrite Em. lia. }
      assert (s * (IZR (int_min c true) - 1/2) <= s * (- N)) by (apply Rmult_le_compat_l; lra). lra.
    + assert (IZR (int_min c false) = 0) by (unfold int_min; now rewrite Em). rewrite H.
      assert (s * (0 - 1/2) <= s * 0) by (apply Rmult_le_compat_l; lra). lra.
Qed.

Lemma minlist_neg l : l <> [] -> Rltb (minlist (map fix_min l)) 0 = existsb (fun m => Rltb m 0) l.
Proof.
  intros Hn. assert (Hn' : map fix_min l <> []) by (destruct l; [congruence|discriminate]).
  destruct (existsb (fun m => Rltb m 0) l) eqn:E.
  - apply Rltb_true. apply existsb_exists in E as (m & Hm & Hl). apply Rltb_true in Hl.
    assert (minlist (map fix_min l) <= fix_min m) by (apply minlist_le; apply in_map; auto). unfold fix_min in *. mm.
  - apply Rltb_false. pose proof (minlist_in _ Hn') as I. apply in_map_iff in I as (m & Em & Hm). rewrite <- Em.
    assert (Rltb m 0 = false). { destruct (Rltb m 0) eqn:Q; auto. rewrite <- E. symmetry. apply existsb_exists. eauto. }
    apply Rltb_false in H. unfold fix_min. mm.
Qed.

(** the result of [set_quant_range] *)
Lemma q_set_inv c s mns mxs s' : mns <> [] -> q_set c s mns mxs = Ok s' ->
  length mns = length mxs /\ (qc_pc c = false -> length mns = 1%nat)
  /\ int_max c (is_signed c mns) <> 0%Z
  /\ (qc_meth c = Sym -> qs_signed s' = Some (is_signed c mns)) /\ (qc_meth c = Asym -> is_signed c mns = false)
  /\ exists ps, qs_par s' = Some ps /\ q_copy (qs_par s) (map2 (mk_par c (is_signed c mns)) mns mxs) = Ok ps.
Proof.
  intros Hn H. unfold q_set in H. destruct (Nat.eqb (length mns) (length mxs)) eqn:L; [|discriminate]. apply Nat.eqb_eq in L. cbn [negb] in H.
  destruct (Nat.ltb 1 (length mns)) eqn:L1; destruct (qc_pc c) eqn:Epc; cbn [andb negb] in H; try discriminate.
  all: replace (match qc_meth c with Asym => false | Sym => Rltb (minlist (map fix_min mns)) 0 end) with (is_signed c mns) in H
         by (unfold is_signed; destruct (qc_meth c); [reflexivity|now rewrite minlist_neg]).
  all: destruct (Z.eqb _ 0) eqn:Z0; [discriminate|]; apply Z.eqb_neq in Z0.
  all: destruct (q_copy _ _) as [ps|] eqn:Ec; cbn [bind] in H; [|discriminate]; injection H as <-.
  all: split; [auto|]; split; [intros; try discriminate; apply Nat.ltb_ge in L1; destruct mns as [|a [|b r]]; simpl in *; try lia; congruence|].
  all: split; [auto|]; split; [intros E; cbn; now rewrite E|]; split; [intros E; unfold is_signed; now rewrite E|].
  all: exists ps; split; [reflexivity|]; unfold mk_par; destruct (qc_meth c); exact Ec.
Qed.
Lemma nth_map2 {A B C} (f : A -> B -> C) : forall a b i da db dc, (i < length a)%nat -> (i < length b)%nat -> nth i (map2 f a b) dc = f (nth i a da) (nth i b db).
Proof. induction a; intros [|b0 b] [|i] da db dc H1 H2; simpl in *; try lia; auto. apply IHa; lia. Qed.
Lemma q_apply_rows c sg ps x y : q_apply c sg ps x = Ok y -> (forall p, ps = [p] -> y = map (map (q_one c sg p)) x)
  /\ (length ps <> 1%nat -> length ps = length x /\ y = map2 (fun p row => map (q_one c sg p) row) ps x).
Proof.
  unfold q_apply. intros H. split.
  - intros p ->. congruence.
  - intros L. destruct ps as [|p [|q r]]; [| simpl in L; lia|]; destruct (Nat.eqb _ (length x)) eqn:E; try discriminate; apply Nat.eqb_eq in E; cbn [negb] in H; injection H as <-; auto.
Qed.
Lemma map_repeat_rows c sg p n (x : mat) : n = length x -> map2 (fun p row => map (q_one c sg p) row) (repeat p n) x = map (map (q_one c sg p)) x.
Proof. intros ->. induction x; simpl; auto. f_equal. auto. Qed.
Lemma q_forward_rows c s mns mxs s' x y : mns <> [] -> q_set c s mns mxs = Ok s' -> q_forward c s' x = Ok y ->
  let sg := is_signed c mns in length y = length x /\ forall i, (i < length x)%nat ->
  nth i y [] = map (q_one c sg (mk_par c sg (lim mns i) (lim mxs i))) (nth i x []).
Proof.
  intros Hn H F sg. apply q_set_inv in H as (L & Lpc & Nz & S1 & S2 & ps & Eps & Ec); auto. fold sg in Nz, S1, S2, Ec.
  unfold q_forward in F. rewrite Eps in F.
  assert (F' : q_apply c sg ps x = Ok y).
  { destruct (qc_meth c) eqn:Em; [|rewrite S1 in F by auto; exact F]. rewrite S2 by auto.
    destruct (qs_signed s') as [b|]; [|exact F]. (* signed is not used by the asymmetric quantizer *)
    assert (G : forall p v, q_one c b p v = q_one c false p v) by (intros; unfold q_one, to_int, int_min, int_max; now rewrite Em).
    unfold q_apply in *. assert (G' : forall p, map (map (q_one c b p)) x = map (map (q_one c false p)) x) by (intros; apply map_ext; intros; apply map_ext; auto).
    assert (G2 : map2 (fun p row => map (q_one c b p) row) ps x = map2 (fun p row => map (q_one c false p) row) ps x).
    { clear - G. revert x. induction ps; intros [|r x]; simpl; auto. f_equal; [apply map_ext; auto|auto]. }
    rewrite G2 in F. destruct ps as [|p [|q r]]; auto. now rewrite <- G'. }
  clear F. destruct (q_apply_rows _ _ _ _ _ F') as [A1 A2].
  destruct mns as [|m0 [|m1 mr]] eqn:Emn; [congruence| |].
  - (* one range *)
    destruct mxs as [|M0 [|M1 Mr]]; simpl in L; try lia. set (p := mk_par c sg m0 M0).
    assert (Y : y = map (map (q_one c sg p)) x).
    { simpl in Ec. fold p in Ec. unfold q_copy in Ec. destruct (qs_par s) as [o|]; [|injection Ec as <-; apply A1; auto].
      destruct (Nat.eqb (length o) (length [p])) eqn:El; injection Ec as <-; [apply A1; auto|].
      apply Nat.eqb_neq in El. destruct (A2 ltac:(rewrite repeat_length; exact El)) as [L2 ->]. apply map_repeat_rows. rewrite <- L2, repeat_length. auto. }
    subst y. rewrite map_length. split; auto. intros i Hi. change (@nil R) with (map (q_one c sg p) []) at 1. rewrite map_nth. reflexivity.
  - rewrite <- Emn in *. assert (Ln : (1 < length mns)%nat) by (subst; simpl; lia).
    assert (Ep : ps = map2 (mk_par c sg) mns mxs).
    { unfold q_copy in Ec. destruct (qs_par s) as [o|]; [|congruence]. destruct (Nat.eqb _ _); [congruence|].
      destruct (map2 (mk_par c sg) mns mxs) as [|p [|q r]] eqn:E2; try discriminate. apply (f_equal (@length _)) in E2. rewrite map2_length, <- L, Nat.min_id in E2. simpl in E2. lia. }
    assert (Lp : length ps = length mns) by (rewrite Ep, map2_length; lia).
    destruct (A2 ltac:(lia)) as [L2 ->]. rewrite map2_length, L2, Nat.min_id. split; auto. intros i Hi.
    rewrite (nth_map2 _ _ _ i {| qp_delta := 0; qp_zf := 0 |} []) by lia. rewrite Ep. rewrite (nth_map2 _ _ _ i 0 0) by lia.
    assert (Lm : forall l : vec, (1 < length l)%nat -> lim l i = nth i l 0) by (intros [|a [|b l]]; simpl; intros; try lia; auto).
    rewrite !Lm by lia. reflexivity.
Qed.
Lemma q_forward_elem c s mns mxs s' x y i j : mns <> [] -> q_set c s mns mxs = Ok s' -> q_forward c s' x = Ok y -> is_elem x i j ->
  let sg := is_signed c mns in elem y i j = q_one c sg (mk_par c sg (lim mns i) (lim mxs i)) (elem x i j).
Proof.
  intros Hn H F [Hi Hj] sg. destruct (q_forward_rows _ _ _ _ _ _ _ Hn H F) as [L E]. unfold elem. rewrite E by auto.
  rewrite (nth_indep _ 0 (q_one c sg (mk_par c sg (lim mns i) (lim mxs i)) 0)) by (rewrite map_length; auto). apply map_nth.
Qed.

(** ** The manager *)
Definition good_len (n : nat) (m : qman) : Prop :=
  (forall a b, m_cur m = Some (a, b) -> length a = n /\ length b = n) /\ (forall ps, qs_par (m_q m) = Some ps -> length ps = n).
Lemma batch_len pc n x : fits pc n x -> length (batch_min pc x) = n /\ length (batch_max pc x) = n /\ batch_empty pc x = false.
Proof.
  unfold fits, batch_min, batch_max, batch_empty. destruct pc.
  - intros [L F]. rewrite !map_length. repeat split; auto. clear L. induction F as [|r x Hr F IH]; simpl; auto. rewrite IH. destruct r; [congruence|reflexivity].
  - intros [L ->]. repeat split; auto. destruct (concat x); [congruence|reflexivity].
Qed.
Lemma estimate_ok e pc n cur x : fits pc n x -> (forall a b, cur = Some (a, b) -> length a = n /\ length b = n) ->
  exists r, estimate e pc cur x = Ok r /\ length (fst r) = n /\ length (snd r) = n.
Proof.
  intros F H. destruct (batch_len pc n x F) as (L1 & L2 & E). unfold estimate. rewrite E.
  assert (B : exists r, Ok (batch_min pc x, batch_max pc x) = Ok r /\ length (fst r) = n /\ length (snd r) = n) by eauto.
  destruct cur as [[a b]|]; [|destruct e; exact B]. destruct (H a b eq_refl) as [La Lb].
  destruct e as [| |mo]; [exact B| |]; rewrite L1, La, Nat.eqb_refl; cbn [negb]; eexists; (split; [reflexivity|]); cbn [fst snd]; rewrite !map2_length; lia.
Qed.
Lemma int_max_2 c sg : (2 <= qc_bits c)%nat -> int_max c sg <> 0%Z.
Proof.
  intros H. assert (P : forall n, (1 <= n)%nat -> (2 <= 2 ^ Z.of_nat n)%Z).
  { intros n Hn. change 2%Z with (2 ^ 1)%Z at 1. apply Z.pow_le_mono_r; lia. }
  unfold int_max. destruct (qc_meth c); [|destruct sg].
  - pose proof (P (qc_bits c) ltac:(lia)). lia.
  - replace (Z.of_nat (qc_bits c) - 1)%Z with (Z.of_nat (qc_bits c - 1)) by lia. pose proof (P (qc_bits c - 1)%nat ltac:(lia)). lia.
  - rewrite Z.sub_0_r. pose proof (P (qc_bits c) ltac:(lia)). lia.
Qed.
Lemma q_set_ok c s n mns mxs : (2 <= qc_bits c)%nat -> length mns = n -> length mxs = n -> (qc_pc c = false -> n = 1%nat) ->
  (forall ps, qs_par s = Some ps -> length ps = n) -> exists s' ps, q_set c s mns mxs = Ok s' /\ qs_par s' = Some ps /\ length ps = n
  /\ (qc_meth c = Sym -> qs_signed s' <> None).
Proof.
  intros Hb L1 L2 Hpc Hs. unfold q_set. rewrite L1, L2, Nat.eqb_refl. cbn [negb].
  assert (E1 : (1 <? n)%nat && negb (qc_pc c) = false). { destruct (qc_pc c); [now rewrite andb_false_r|]. rewrite Hpc by auto. reflexivity. }
  rewrite E1. set (sg := match qc_meth c with Asym => false | Sym => Rltb (minlist (map fix_min mns)) 0 end).
  rewrite (proj2 (Z.eqb_neq _ _) (int_max_2 c sg Hb)).
  set (new := map2 _ mns mxs). assert (Ln : length new = n) by (unfold new; rewrite map2_length; lia).
  assert (C : q_copy (qs_par s) new = Ok new).
  { unfold q_copy. destruct (qs_par s) as [o|]; auto. rewrite (Hs o eq_refl), Ln, Nat.eqb_refl. reflexivity. }
  rewrite C. cbn [bind]. eexists _, new. split; [reflexivity|]. repeat split; auto. intros Em. cbn. rewrite Em. discriminate.
Qed.
Lemma q_forward_ok c s ps n x : qs_par s = Some ps -> length ps = n -> (qc_meth c = Sym -> qs_signed s <> None) -> fits (qc_pc c) n x ->
  exists y, q_forward c s x = Ok y.
Proof.
  intros E L Hsg F. unfold q_forward. rewrite E.
  assert (G : forall b, exists y, q_apply c b ps x = Ok y).
  { intros b. unfold q_apply. unfold fits in F. destruct (qc_pc c).
    - destruct F as [Lx _]. rewrite L, Lx, Nat.eqb_refl. cbn [negb]. destruct ps as [|p [|q r]]; eauto.
    - destruct F as [_ ->]. destruct ps as [|p [|q r]]; simpl in L; try lia. eauto. }
  destruct (qc_meth c); [apply G|]. destruct (qs_signed s); [apply G|]. now destruct (Hsg eq_refl).
Qed.
Definition estimating (m : qman) : bool := match m_state m with Estimate => true | EstimateTrain => m_train m | _ => false end.
Lemma fits_pc pc n x : fits pc n x -> pc = false -> n = 1%nat.
Proof. unfold fits. intros F ->. tauto. Qed.
Lemma man_forward_ok m e n x : m_est m = Some e -> estimating m = true -> (2 <= qc_bits (m_cfg m))%nat ->
  fits (qc_pc (m_cfg m)) n x -> good_len n m ->
  exists y m' r, man_forward m x = Ok (y, m') /\ good_len n m' /\ m_est m' = Some e /\ m_state m' = m_state m /\ m_train m' = m_train m
   /\ m_cfg m' = m_cfg m /\ estimate e (qc_pc (m_cfg m)) (m_cur m) x = Ok r /\ m_cur m' = Some r
   /\ q_set (m_cfg m) (m_q m) (fst r) (snd r) = Ok (m_q m') /\ q_forward (m_cfg m) (m_q m') x = Ok y
   /\ (exists ps, qs_par (m_q m') = Some ps /\ length ps = n) /\ (qc_meth (m_cfg m) = Sym -> qs_signed (m_q m') <> None).
Proof.
  intros Ee Es Hb F [G1 G2]. destruct (estimate_ok e (qc_pc (m_cfg m)) n (m_cur m) x F G1) as (r & Er & L1 & L2).
  destruct (q_set_ok (m_cfg m) (m_q m) n (fst r) (snd r) Hb L1 L2 (fits_pc _ _ _ F) G2) as (q & ps & Eq & Ep & Lp & Sg).
  destruct (q_forward_ok (m_cfg m) q ps n x Ep Lp Sg F) as [y Ey].
  unfold man_forward. rewrite Ee. unfold estimating in Es. rewrite Es, Er. cbn [bind]. rewrite Eq. cbn [bind]. rewrite Ey. cbn [bind].
  eexists y, _, r. split; [reflexivity|]. cbn. split.
  { split; cbn; [intros a b [= ->]; auto|]. intros ps' E'. congruence. }
  repeat split; auto. eauto.
Qed.

(** minimum and maximum of the data of all batches *)
Lemma batch_lim pc n x i : fits pc n x -> (i < n)%nat -> channel pc i x <> [] /\ nth i (batch_min pc x) 0 = minlist (channel pc i x) /\ nth i (batch_max pc x) 0 = maxlist (channel pc i x).
Proof.
  unfold fits, batch_min, batch_max, channel. destruct pc.
  - intros [L F] Hi. rewrite Forall_forall in F. split; [apply F, nth_In; lia|].
    rewrite (nth_indep (map minlist x) 0 (minlist [])), (nth_indep (map maxlist x) 0 (maxlist [])) by (rewrite map_length; lia). now rewrite !map_nth.
  - intros [L ->] Hi. destruct i; [|lia]. auto.
Qed.
