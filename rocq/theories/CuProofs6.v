From Verif Require Import Prelude Rand CuModel CuSpec CuProofs CuProofs2 CuProofs3 CuProofs4 CuProofs5.
From Coq Require Import NArith Permutation Lia Lra.

Lemma map_const_on {A} (g : A -> bool) c l : (forall a, In a l -> g a = c) -> map g l = repeat c (length l).
Proof. intros H. rewrite <- (map_const_repeat c). apply map_ext_in. exact H. Qed.
Lemma lp64_gen (data neg : N) :
  let all_negative := (not32 (N.lor neg (not32 data)) =? 0)%N in
  let all_positive := (not32 (N.lor (not32 neg) (not32 data)) =? 0)%N in
  lp (if (all_negative || all_positive)%bool
      then {| l_n := N.of_nat (popc data); l_neg := if all_positive then 0%N else 1%N; l_mixed := false |}
      else {| l_n := data; l_neg := neg; l_mixed := true |})
  = map (fun t => N.testbit neg (N.of_nat t)) (filter (fun t => N.testbit data (N.of_nat t)) (seq 0 32)).
Proof.
  intros an app. destruct app eqn:P.
  - rewrite orb_true_r. unfold lp. cbn [l_mixed l_neg l_n N.ltb N.compare]. rewrite Nnat.Nat2N.id. unfold popc.
    symmetry. apply map_const_on. intros t Ht. apply filter_In in Ht. destruct Ht as [H1 H2]. apply in_seq in H1.
    unfold app in P. apply N.eqb_eq in P. apply (f_equal (fun x => N.testbit x (N.of_nat t))) in P.
    rewrite N.bits_0, not32_bit, N.lor_spec, !not32_bit, H2 in P. destruct (N.ltb_spec (N.of_nat t) 32); [| lia]. cbn [andb negb] in P.
    rewrite orb_false_r in P. destruct (N.testbit neg (N.of_nat t)); [discriminate | reflexivity].
  - rewrite orb_false_r. destruct an eqn:Q; unfold lp; cbn [l_mixed l_neg l_n N.ltb N.compare]; [| reflexivity].
    rewrite Nnat.Nat2N.id. unfold popc.
    symmetry. apply map_const_on. intros t Ht. apply filter_In in Ht. destruct Ht as [H1 H2]. apply in_seq in H1.
    unfold an in Q. apply N.eqb_eq in Q. apply (f_equal (fun x => N.testbit x (N.of_nat t))) in Q.
    rewrite N.bits_0, not32_bit, N.lor_spec, !not32_bit, H2 in Q. destruct (N.ltb_spec (N.of_nat t) 32); [| lia]. cbn [andb negb] in Q.
    rewrite orb_false_r in Q. destruct (N.testbit neg (N.of_nat t)); [reflexivity | discriminate].
Qed.
Lemma filter_map_comm (f g : nat -> bool) (h : bool -> bool) l :
  filter h (map g (filter f l)) = map g (filter (fun t => (f t && h (g t))%bool) l).
Proof.
  induction l as [| a l IH]; [reflexivity |]. cbn [filter]. destruct (f a); cbn [map filter andb]; [| exact IH].
  destruct (h (g a)); cbn [map]; rewrite IH; reflexivity.
Qed.
Lemma lp_getn64 os x d : (os = 0 \/ os = 1 \/ os = -1)%Z ->
  lp (getn64 os x d) = kept os (map (fun t => xorb (N.testbit x (N.of_nat (32 + t))) (N.testbit d (N.of_nat (32 + t))))
     (filter (fun t => (N.testbit x (N.of_nat t) && N.testbit d (N.of_nat t))%bool) (seq 0 32))).
Proof.
  intros Ho. unfold getn64. cbv zeta. rewrite lp64_gen.
  assert (NB : forall t, (t < 32)%nat -> N.testbit (N.lxor (w32 (N.shiftr x 32)) (w32 (N.shiftr d 32))) (N.of_nat t)
             = xorb (N.testbit x (N.of_nat (32 + t))) (N.testbit d (N.of_nat (32 + t)))).
  { intros t Ht. rewrite N.lxor_spec, !w32_nat, !N.shiftr_spec by lia. destruct (Nat.ltb_spec t 32); [| lia]. cbn [andb].
    do 2 f_equal; f_equal; lia. }
  assert (DB : forall t, (t < 32)%nat -> N.testbit (N.land (w32 x) (w32 d)) (N.of_nat t) = (N.testbit x (N.of_nat t) && N.testbit d (N.of_nat t))%bool).
  { intros t Ht. rewrite N.land_spec, !w32_nat. destruct (Nat.ltb_spec t 32); [reflexivity | lia]. }
  set (neg0 := N.lxor _ _) in *. set (data0 := N.land (w32 x) (w32 d)) in *.
  set (f := fun t => (N.testbit x (N.of_nat t) && N.testbit d (N.of_nat t))%bool).
  set (g := fun t => xorb (N.testbit x (N.of_nat (32 + t))) (N.testbit d (N.of_nat (32 + t)))).
  assert (ONE : forall t, (t < 32)%nat -> N.testbit (not32 0) (N.of_nat t) = true).
  { intros t Ht. rewrite not32_bit, N.bits_0. destruct (N.ltb_spec (N.of_nat t) 32); [reflexivity | lia]. }
  assert (MF : forall (g1 g2 f1 f2 : nat -> bool), (forall t, (t < 32)%nat -> g1 t = g2 t) -> (forall t, (t < 32)%nat -> f1 t = f2 t) ->
     map g1 (filter f1 (seq 0 32)) = map g2 (filter f2 (seq 0 32))).
  { intros g1 g2 f1 f2 G F. rewrite (filter_ext_seq f1 f2) by (intros; apply F; lia). apply map_ext_in.
    intros t Ht. apply filter_In in Ht. destruct Ht as [Ht _]. apply in_seq in Ht. apply G. lia. }
  destruct Ho as [-> | [-> | ->]]; unfold kept; cbn [Z.eqb Z.opp Pos.eqb].
  - apply MF; assumption.
  - rewrite (filter_map_comm f g (fun b => b)).
    rewrite (MF (fun t => N.testbit (not32 0) (N.of_nat t)) (fun _ => true) (fun t => N.testbit (N.land data0 neg0) (N.of_nat t)) (fun t => (f t && g t)%bool)).
    + apply map_ext_in. intros t Ht. apply filter_In in Ht. destruct Ht as [_ Ht]. apply andb_true_iff in Ht. symmetry. apply Ht.
    + exact ONE.
    + intros t Ht. rewrite N.land_spec, DB, NB by assumption. reflexivity.
  - rewrite (filter_map_comm f g negb), map_map.
    apply MF; [exact ONE |]. intros t Ht. rewrite N.land_spec, not32_bit, DB, NB by assumption.
    destruct (N.ltb_spec (N.of_nat t) 32); [reflexivity | lia].
Qed.

Lemma map_filter_ext {A} (g1 g2 : nat -> A) (f1 f2 : nat -> bool) a n :
  (forall t, (a <= t < a + n)%nat -> f1 t = f2 t) -> (forall t, (a <= t < a + n)%nat -> f1 t = true -> g1 t = g2 t) ->
  map g1 (filter f1 (seq a n)) = map g2 (filter f2 (seq a n)).
Proof.
  intros F G. rewrite <- (filter_ext_seq f1 f2) by assumption. apply map_ext_in. intros t Ht. apply filter_In in Ht. destruct Ht as [Ht T].
  apply in_seq in Ht. apply G; [lia | assumption].
Qed.
(** samples one after the other *)
Lemma by_sample (K : nat -> nat) (f g : nat -> bool) m :
  map g (filter f (seq 0 (kc_values K m)))
  = flat_map (fun b => map (fun k => g (kc_values K b + k)%nat) (filter (fun k => f (kc_values K b + k)%nat) (seq 0 (K b)))) (seq 0 m).
Proof.
  induction m as [| m IH]; [reflexivity |].
  rewrite (seq_S m 0), flat_map_app, <- IH. cbn [kc_values flat_map Nat.add]. rewrite app_nil_r.
  rewrite seq_app, filter_app, map_app. f_equal. cbn [Nat.add]. apply map_filter_seq_shift.
Qed.
Lemma nB_cover K m : (kc_values K m <= 32 * ((kc_values K m + 31) / 32))%nat.
Proof.
  pose proof (Nat.div_mod (kc_values K m + 31) 32 ltac:(lia)). pose proof (Nat.mod_upper_bound (kc_values K m + 31) 32 ltac:(lia)). lia.
Qed.

Lemma loads64_pulses os ublm Ks BL m xsz dsz trx trd vx vd opsx opsd xi di :
  (os = 0 \/ os = 1 \/ os = -1)%Z -> (xi < xsz)%nat -> (di < dsz)%nat ->
  (forall b, (b < m)%nat -> get_K ublm Ks BL b <= 32)%nat ->
  (forall b i, (b < m)%nat -> (i < xsz)%nat -> wf_tv (get_K ublm Ks BL b) (vx b i)) ->
  (forall b i, (b < m)%nat -> (i < dsz)%nat -> wf_tv (get_K ublm Ks BL b) (vd b i)) ->
  Permutation opsx (flat_map (ops64 ublm Ks BL m xsz trx vx) (seq 0 (m * xsz))) ->
  Permutation opsd (flat_map (ops64 ublm Ks BL m dsz trd vd) (seq 0 (m * dsz))) ->
  flat_map lp (loads64 os (get_nB ublm Ks BL m) xsz dsz (run64 opsx) (run64 opsd) xi di)
  = kept os (all_pulses (get_K ublm Ks BL) (fun b => vx b xi) (fun b => vd b di) m).
Proof.
  intros Ho Hx Hd HK Wx Wd Px Pd. unfold loads64. set (nB := get_nB ublm Ks BL m). set (K := get_K ublm Ks BL) in *.
  assert (ENB : nB = ((kc_values K m + 31) / 32)%nat) by apply get_nB_ok.
  assert (AD : forall b i sz, (i < sz)%nat -> idx_to_load true b i sz nB sz = (i * nB + b)%nat).
  { intros b i sz H. unfold idx_to_load. cbv zeta. rewrite (Nat.mul_comm (_ / sz)). rewrite <- Nat.div_mod by lia. lia. }
  rewrite flat_map_map'.
  set (bx := fun P => N.testbit (run64 opsx (xi * nB + P / 32)%nat) (N.of_nat (P mod 32))).
  set (bd := fun P => N.testbit (run64 opsd (di * nB + P / 32)%nat) (N.of_nat (P mod 32))).
  set (sx := fun P => N.testbit (run64 opsx (xi * nB + P / 32)%nat) (N.of_nat (32 + P mod 32))).
  set (sd := fun P => N.testbit (run64 opsd (di * nB + P / 32)%nat) (N.of_nat (32 + P mod 32))).
  assert (DM : forall q t, (t < 32)%nat -> ((32 * q + t) / 32 = q /\ (32 * q + t) mod 32 = t)%nat).
  { intros q t Ht. split; [symmetry; apply (Nat.div_unique _ _ _ t); lia | symmetry; apply (Nat.mod_unique _ _ q t); lia]. }
  rewrite (flat_map_ext_in _ (fun q => kept os (map (fun t => xorb (sx (32 * q + t)%nat) (sd (32 * q + t)%nat))
      (filter (fun t => (bx (32 * q + t)%nat && bd (32 * q + t)%nat)%bool) (seq 0 32))))).
  2:{ intros q Hq. rewrite lp_getn64 by assumption. rewrite !AD by assumption. apply (f_equal (kept os)). apply map_filter_ext; intros t Ht; [| intros _];
        unfold bx, bd, sx, sd; destruct (DM q t ltac:(lia)) as [-> ->]; reflexivity. }
  rewrite <- kept_flat. rewrite (flat_words (fun P => xorb (sx P) (sd P)) (fun P => (bx P && bd P)%bool)). apply (f_equal (kept os)).
  replace (32 * nB)%nat with (kc_values K m + (32 * nB - kc_values K m))%nat by (pose proof (nB_cover K m); lia).
  rewrite seq_app, filter_app, map_app. rewrite (filter_none _ (seq (0 + _) _)).
  2:{ intros P HP. apply in_seq in HP. cbn [Nat.add] in HP.
      assert (P / 32 < nB)%nat by (apply Nat.div_lt_upper_bound; lia).
      pose proof (Nat.div_mod P 32 ltac:(lia)). pose proof (Nat.mod_upper_bound P 32 ltac:(lia)).
      unfold bx. rewrite (stream_end ublm Ks BL m xsz trx vx opsx xi) by (assumption || (fold K; lia)). reflexivity. }
  cbn [map]. rewrite app_nil_r. rewrite by_sample. unfold all_pulses. apply flat_map_ext_in. intros b Hb. apply in_seq in Hb.
  rewrite pulses_norm.
  assert (POS : forall k, (k < K b)%nat -> ((kc_values K b + k) / 32 < nB)%nat).
  { intros k Hk. apply Nat.div_lt_upper_bound; [lia |]. pose proof (kc_step K b m ltac:(lia)). pose proof (nB_cover K m). lia. }
  assert (EUCL : forall P, (32 * (P / 32) + P mod 32 = P /\ P mod 32 < 32)%nat).
  { intros P. pose proof (Nat.div_mod P 32 ltac:(lia)). pose proof (Nat.mod_upper_bound P 32 ltac:(lia)). lia. }
  apply map_filter_ext.
  - intros k Hk. unfold bx, bd. destruct (EUCL (kc_values K b + k)%nat) as [E1 E2].
    rewrite (stream_low ublm Ks BL m xsz trx vx opsx xi HK Wx Px Hx _ _ b) by (first [exact E2 | apply POS; lia | fold K; lia]).
    rewrite (stream_low ublm Ks BL m dsz trd vd opsd di HK Wd Pd Hd _ _ b) by (first [exact E2 | apply POS; lia | fold K; lia]).
    fold K. rewrite E1. replace (kc_values K b + k - kc_values K b)%nat with k by lia. reflexivity.
  - intros k Hk _. unfold sx, sd. destruct (EUCL (kc_values K b + k)%nat) as [E1 E2].
    rewrite (stream_high ublm Ks BL m xsz trx vx opsx xi HK Wx Px Hx _ _ b) by (first [exact E2 | apply POS; lia | fold K; lia]).
    rewrite (stream_high ublm Ks BL m dsz trd vd opsd di HK Wd Pd Hd _ _ b) by (first [exact E2 | apply POS; lia | fold K; lia]).
    reflexivity.
Qed.
Lemma wf_getn32 os nK x d : (os = 0 \/ os = 1 \/ os = -1)%Z -> wf_load (getn32 os nK x d).
Proof.
  intros Ho _. unfold getn32. cbv zeta. rewrite !land1.
  destruct Ho as [-> | [-> | ->]]; cbn [Z.eqb Z.opp Pos.eqb andb];
    destruct (N.testbit (x 0%nat) 0), (N.testbit (d 0%nat) 0); cbn [N.lxor Pos.lxor N.eqb l_neg]; auto.
Qed.
Lemma wf_getn64 os x d : wf_load (getn64 os x d).
Proof.
  unfold wf_load, getn64. cbv zeta. destruct (_ || _)%bool; cbn [l_mixed l_neg]; [| discriminate]. intros _. destruct (_ =? 0)%N; auto.
Qed.
