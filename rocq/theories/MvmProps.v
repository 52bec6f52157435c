(** * The analog matrix-vector product of torch tiles: the theorems *)
From Verif Require Import Prelude MvmModel MvmSpec MvmProofs.

(** C21: the bound management loop always ends: if [max_bm_factor < 2^n] then [n+1]
    rounds are enough whatever the weights, inputs and noise are, and [matmul] returns
    a result or raises. *)
Theorem C21_bound_management_terminates : forall p rn W X n, max_bm_factor p < 2 ^ n ->
  exists r, forall fuel, (n < fuel)%nat -> matmul fuel p rn W X = Some r.
Proof.
  intros p rn W X n H. unfold matmul. destruct (is_perfect p); [eauto|].
  assert (G : exists r, forall fuel, (n < fuel)%nat ->
     (if bm_on p then match bm_loop fuel p rn W X (nzs (map (noise_management p) X)) 0 (1/2) with
        | Some (_, scales, Y) => Some (Ok (unscale p scales Y)) | None => None end
      else Some (Ok (unscale p (map (fun a => 1 / a) (nzs (map (noise_management p) X)))
             (snd (analog_mv p rn 0 W X (map (fun a => 1 / a) (nzs (map (noise_management p) X)))))))) = Some r).
  { destruct (bm_on p); [|eauto].
    destruct (bm_loop_total p rn W X (nzs (map (noise_management p) X)) n (S n) 0 (1/2)) as ([[k sc] Y] & E & _); [lia| |].
    - rewrite half_pow. auto.
    - exists (Ok (unscale p sc Y)). intros fuel Hf. rewrite (bm_loop_more _ _ _ _ _ _ _ _ _ fuel Hf E). reflexivity. }
  destruct (nm p); try (eexists; reflexivity); destruct (_ && _ && _); try (eexists; reflexivity);
    destruct (quant_div0 p); try (eexists; reflexivity); exact G.
Qed.
(** The default limit of 1000 means at most 11 rounds. *)
Example C21_default : 1000 < 2 ^ 10.
Proof. simpl. lra. Qed.
(** Such an [n] exists for every limit. *)
Theorem C21_always_ends : forall p rn W X, exists n r, forall fuel, (n < fuel)%nat -> matmul fuel p rn W X = Some r.
Proof.
  intros p rn W X. destruct (Pow_x_infinity 2 ltac:(rewrite Rabs_right; lra) (max_bm_factor p + 1)) as [n Hn].
  exists n. apply C21_bound_management_terminates. specialize (Hn n (Nat.le_refl _)).
  rewrite Rabs_right in Hn; [lra|]. apply Rle_ge, pow_le. lra.
Qed.

Section Entry.
  Variables (p : io) (rn : rnd) (W : mat) (X : list vec).
  Hypothesis NP : is_perfect p = false.
  Hypothesis Hnm : nm p <> NM_MAX.
  Hypothesis Hoff : noise_off p.
  Hypothesis Hrn : rounding_ok rn.
  Hypothesis Hin : forall x v, In x X -> In v x -> 0 < inp_bound p -> Rabs v <= range_of p x * inp_bound p.
  Let nms := nzs (map (noise_management p) X).
  Lemma nms_len : length nms = length X.
  Proof. unfold nms, nzs. now rewrite !map_length. Qed.
  Lemma nms_at i : (i < length X)%nat ->
    (0 < range_of p (nth i X []) /\ nth i nms 0 = range_of p (nth i X []))
    \/ (range_of p (nth i X []) = 0 /\ nth i nms 0 = 1 /\ Forall (eq 0) (nth i X [])).
  Proof.
    intros Hi. unfold nms. rewrite nth_nzs, nth_nms by (rewrite ?map_length; auto).
    destruct (scale_cases p (nth i X []) Hnm) as [(A & B & C)|(A & B & C & D & E)]; [left|right]; auto.
  Qed.
  Lemma entry_zero k red i j : (i < length X)%nat -> (j < length W)%nat -> Forall (eq 0) (nth i X []) ->
    nth j (nth i (unscale p (bm_scales nms red) (snd (analog_mv p rn k W X (bm_scales nms red)))) []) 0 = 0
    /\ nth j (matvec W (nth i X [])) 0 = 0.
  Proof.
    intros Hi Hj F. rewrite entry by (auto using nms_len). rewrite raw_zero, matvec_zero by auto. rewrite !nth_zeros.
    split; auto. assert (C : clampb (out_bound p) 0 = 0) by (unfold clampb; rcase; auto; mm). rewrite C. ring.
  Qed.
  Lemma raw_close k red i j : quant_div0 p = false -> 1 <= red -> (i < length X)%nat -> (j < length W)%nat -> 0 < range_of p (nth i X []) ->
    Rabs (nth j (raw_at p rn k W i (1 / range_of p (nth i X []) / red) (nth i X [])) 0
          - 1 / range_of p (nth i X []) / red * nth j (matvec W (nth i X [])) 0) <= conv_err p (nth j W []).
  Proof.
    intros D Rd Hi Hj Pos. apply raw_err; auto. intros v Hv.
    replace (v * (1 / range_of p (nth i X []) / red)) with (v * (1 / (range_of p (nth i X []) * red))) by (field; lra).
    apply within_scale; [apply Rmult_lt_0_compat; lra|]. intros B.
    pose proof (Hin (nth i X []) v (nth_In _ _ Hi) Hv B).
    apply Rle_trans with (range_of p (nth i X []) * inp_bound p); auto.
    apply Rmult_le_compat_r; [lra|]. rewrite <- (Rmult_1_r (range_of p (nth i X []))) at 1. apply Rmult_le_compat_l; lra.
  Qed.
  Lemma entry_bound k red i j : quant_div0 p = false -> 1 <= red -> (i < length X)%nat -> (j < length W)%nat ->
    (within (out_bound p) (nth j (raw_at p rn k W i (nth i (bm_scales nms red) 0) (nth i X [])) 0) = true
     \/ (0 < out_bound p -> Rabs (nth j (matvec W (nth i X [])) 0) <= range_of p (nth i X []) * red * out_bound p)) ->
    Rabs (nth j (nth i (unscale p (bm_scales nms red) (snd (analog_mv p rn k W X (bm_scales nms red)))) []) 0
          - out_scale p * nth j (matvec W (nth i X [])) 0)
    <= Rabs (out_scale p) * (range_of p (nth i X []) * red) * conv_err p (nth j W []).
  Proof.
    intros D Rd Hi Hj H. destruct (nms_at i Hi) as [[Pos E]|(Z & E & F)].
    - rewrite <- E. apply entry_err; auto using nms_len; try (rewrite E); try lra.
      destruct H as [H|H].
      + assert (Es : nth i (bm_scales nms red) 0 = 1 / nth i nms 0 / red).
        { unfold bm_scales. rewrite (nth_indep _ 0 (1 / 0 / red)) by (rewrite map_length, nms_len; auto).
          exact (map_nth (fun a => 1 / a / red) nms 0 i). }
        rewrite Es, E in H. rewrite clampb_within by auto. now apply raw_close.
      + eapply Rle_trans; [apply clampb_near|now apply raw_close].
        rewrite Rmult_comm. replace (1 / range_of p (nth i X []) / red) with (1 / (range_of p (nth i X []) * red)) by (field; lra).
        apply within_scale; [apply Rmult_lt_0_compat; lra|auto].
    - destruct (entry_zero k red i j Hi Hj F) as [A B]. rewrite A, B, Z. replace (0 - out_scale p * 0) with 0 by ring. rewrite Rabs_R0. right. ring.
  Qed.
End Entry.

Lemma quant_defined_iff p : quant_defined p -> quant_div0 p = false.
Proof.
  intros [A B]. unfold quant_div0. apply orb_false_iff. split; apply andb_false_iff.
  - destruct (Rltb 0 (inp_res p)) eqn:E; auto. right. apply Reqb_false, A. now apply Rltb_true.
  - destruct (Rltb 0 (out_res p)) eqn:E; auto. right. apply Reqb_false, B. now apply Rltb_true.
Qed.

Lemma nth_const {A B} (b : B) d : forall (l : list A) i, (i < length l)%nat -> nth i (map (fun _ => b) l) d = b.
Proof. induction l as [|a l IH]; intros [|i] H; simpl in *; try lia; auto. apply IH; lia. Qed.

(** C22: with [is_perfect] the result is exactly [W x]. *)
Theorem C22_perfect_exact : forall fuel p rn W X, is_perfect p = true ->
  matmul fuel p rn W X = Some (Ok (map (matvec W) X)).
Proof. intros fuel p rn W X H. unfold matmul. now rewrite H. Qed.

(** C23: without noise and asymmetry every output differs from the exact one by at
    most what the converter steps explain, if the input fits the input range and the
    exact result fits the output range. *)
Theorem C23_error_bound : forall fuel p rn W X Y i j,
  is_perfect p = false -> nm p <> NM_MAX -> bm_on p = false ->
  noise_off p -> rounding_ok rn ->
  (forall x v, In x X -> In v x -> 0 < inp_bound p -> Rabs v <= range_of p x * inp_bound p) ->
  matmul fuel p rn W X = Some (Ok Y) -> (i < length X)%nat -> (j < length W)%nat ->
  (0 < out_bound p -> Rabs (nth j (matvec W (nth i X [])) 0) <= range_of p (nth i X []) * out_bound p) ->
  Rabs (nth j (nth i Y []) 0 - out_scale p * nth j (matvec W (nth i X [])) 0)
  <= Rabs (out_scale p) * range_of p (nth i X []) * conv_err p (nth j W []).
Proof.
  intros fuel p rn W X Y i j NP Hnm BM Hoff Hrn Hin E Hi Hj Hr.
  apply matmul_inv in E as [(N & T & Z & ->)|(D & k & red & -> & H1 & _)]; auto.
  - rewrite Forall_forall in Z. specialize (Z _ (nth_In X [] Hi)).
    destruct (scale_cases p (nth i X []) Hnm) as [(A & B & _)|(A & B & C & F & _)]; [lra|].
    rewrite matvec_zero, nth_zeros by auto. rewrite nth_const by auto.
    rewrite nth_zeros, B. rewrite Rmult_0_r, Rmult_0_r, Rminus_0_r, Rabs_R0, Rmult_0_l. lra.
  - destruct (H1 BM) as [-> ->].
    replace (range_of p (nth i X [])) with (range_of p (nth i X []) * 1) at 1 by ring.
    apply entry_bound; auto; try lra. right. rewrite Rmult_1_r. exact Hr.
Qed.
(** ... with ABS_MAX noise management and the usual [inp_bound >= 1] every input fits. *)
Theorem C23_abs_max_fits : forall p x v, nm p = NM_ABS_MAX -> nm_thres p <= 0 -> 1 <= inp_bound p -> In v x ->
  Rabs v <= range_of p x * inp_bound p.
Proof.
  intros p x v N T B Hv. unfold range_of. rewrite N, (proj2 (Rltb_false _ _) T). pose proof (maxabs_ub x v Hv). pose proof (maxabs_nonneg x).
  rewrite <- (Rmult_1_r (Rabs v)). apply Rmult_le_compat; try lra. apply Rabs_pos.
Qed.
(** ... and without converters the result is exact. *)
Theorem C22_no_converters_exact : forall fuel p rn W X Y i j,
  is_perfect p = false -> nm p <> NM_MAX -> bm_on p = false ->
  noise_off p -> rounding_ok rn -> inp_res p <= 0 -> out_res p <= 0 ->
  (forall x v, In x X -> In v x -> 0 < inp_bound p -> Rabs v <= range_of p x * inp_bound p) ->
  matmul fuel p rn W X = Some (Ok Y) -> (i < length X)%nat -> (j < length W)%nat ->
  (0 < out_bound p -> Rabs (nth j (matvec W (nth i X [])) 0) <= range_of p (nth i X []) * out_bound p) ->
  nth j (nth i Y []) 0 = out_scale p * nth j (matvec W (nth i X [])) 0.
Proof.
  intros fuel p rn W X Y i j NP Hnm BM Hoff Hrn R1 R2 Hin E Hi Hj Hr.
  pose proof (C23_error_bound fuel p rn W X Y i j NP Hnm BM Hoff Hrn Hin E Hi Hj Hr) as B.
  unfold conv_err, qerr in B. rewrite (proj2 (Rltb_false _ _) R1), (proj2 (Rltb_false _ _) R2), Rmult_0_r, Rplus_0_r, Rmult_0_r in B.
  pose proof (Rabs_pos (nth j (nth i Y []) 0 - out_scale p * nth j (matvec W (nth i X [])) 0)).
  assert (Z : nth j (nth i Y []) 0 - out_scale p * nth j (matvec W (nth i X [])) 0 = 0) by (destruct (Req_dec (nth j (nth i Y []) 0 - out_scale p * nth j (matvec W (nth i X [])) 0) 0) as [Q|Q]; auto; apply Rabs_pos_lt in Q; lra). lra.
Qed.

(** With iterative bound management: some power of two reduces the inputs; then
    either a limit stopped the iteration or the error is bounded for every output
    without any assumption on the output range; and inputs are reduced only when some
    exact output was outside the range (up to the converter error). *)
Theorem C23_bound_management : forall fuel p rn W X Y,
  is_perfect p = false -> nm p <> NM_MAX -> bm_on p = true ->
  noise_off p -> rounding_ok rn ->
  (forall x v, In x X -> In v x -> 0 < inp_bound p -> Rabs v <= range_of p x * inp_bound p) ->
  matmul fuel p rn W X = Some (Ok Y) ->
  exists k,
    (limit_reached p (2 ^ k) \/
     forall i j, (i < length X)%nat -> (j < length W)%nat ->
       Rabs (nth j (nth i Y []) 0 - out_scale p * nth j (matvec W (nth i X [])) 0)
       <= Rabs (out_scale p) * (range_of p (nth i X []) * 2 ^ k) * conv_err p (nth j W []))
    /\ (forall m, (m < k)%nat -> ~ limit_reached p (2 ^ m) /\
         exists i j, (i < length X)%nat /\ (j < length W)%nat /\ 0 < out_bound p /\
           range_of p (nth i X []) * 2 ^ m * (out_bound p - conv_err p (nth j W [])) < Rabs (nth j (matvec W (nth i X [])) 0)).
Proof.
  intros fuel p rn W X Y NP Hnm BM Hoff Hrn Hin E.
  apply matmul_inv in E as [(N & T & Z & ->)|(D & k & red & -> & _ & H2)]; auto.
  - exists 0%nat. split; [|intros; lia]. right. intros i j Hi Hj.
    rewrite Forall_forall in Z. specialize (Z _ (nth_In X [] Hi)).
    destruct (scale_cases p (nth i X []) Hnm) as [(A & B & _)|(A & B & C & F & _)]; [lra|].
    rewrite matvec_zero, nth_zeros by auto. rewrite nth_const by auto.
    rewrite nth_zeros, B. rewrite Rmult_0_r, Rmult_0_l, Rmult_0_r, Rminus_0_r, Rabs_R0, Rmult_0_l. lra.
  - destruct (H2 BM) as (-> & P & Q). clear H2. exists k.
    assert (LR : forall m, bm_stop p (2 ^ m) = true <-> limit_reached p (2 ^ m)).
    { intros m. unfold bm_stop, limit_reached. change (norm_res (inp_res p) * (2 * inp_bound p)) with (quant_step (inp_res p) (inp_bound p)).
      set (st := quant_step (inp_res p) (inp_bound p)). rewrite orb_true_iff, Rltb_true.
      destruct (Rltb 0 (inp_res p)) eqn:R1; [apply Rltb_true in R1|apply Rltb_false in R1].
      - rewrite andb_true_iff, !Rltb_true. split; (intros [A|A]; [left; auto|right]).
        + destruct A as [A B]. repeat split; auto. apply Rmult_lt_compat_r with (r := st) in B; auto.
          unfold Rdiv in B. rewrite Rmult_assoc, Rinv_l, Rmult_1_r in B; lra.
        + destruct A as (_ & A & B). split; auto. apply Rmult_lt_reg_r with st; auto.
          unfold Rdiv. rewrite Rmult_assoc, Rinv_l, Rmult_1_r; lra.
      - split; (intros [A|A]; [left; auto|]); [discriminate|destruct A as [A _]; lra]. }
    assert (P1 : forall m, 1 <= 2 ^ m) by (intros m; apply pow_R1_Rle; lra).
    split.
    + destruct P as [P|P]; [right|left; now apply LR]. intros i j Hi Hj. apply entry_bound; auto.
      left. apply fst_analog_mv; auto. unfold bm_scales. rewrite map_length. apply nms_len.
    + intros m Hm. destruct (Q m Hm) as [Q1 Q2]. split; [rewrite <- LR; congruence|].
      (* some raw value is out of range *)
      assert (Ls : length (bm_scales (nzs (map (noise_management p) X)) (2 ^ m)) = length X)
        by (unfold bm_scales; rewrite map_length; apply nms_len).
      assert (G : exists i j, (i < length X)%nat /\ (j < length W)%nat /\
         within (out_bound p) (nth j (raw_at p rn m W i (nth i (bm_scales (nzs (map (noise_management p) X)) (2 ^ m)) 0) (nth i X [])) 0) = false).
      { unfold analog_mv in Q1. cbn [fst] in Q1.
        set (l := imap _ _ _) in Q1.
        assert (G1 : exists row, In row l /\ forallb (within (out_bound p)) row = false).
        { clear -Q1. induction l as [|r l IH]; simpl in Q1; [discriminate|]. apply andb_false_iff in Q1 as [Q1|Q1].
          - exists r; simpl; auto.
          - destruct (IH Q1) as [r' [A B]]. exists r'; simpl; auto. }
        destruct G1 as [row [Hrow Hf]]. apply (In_nth _ _ []) in Hrow as [i [Hi Ei]].
        unfold l in Hi. rewrite imap_length, combine_length, Ls, Nat.min_id in Hi.
        unfold l in Ei. rewrite imap_nth with (a := ((0, []) : R * vec)) in Ei by (rewrite combine_length, Ls, Nat.min_id; exact Hi).
        rewrite combine_nth in Ei by auto. simpl Nat.add in Ei. fold (raw_at p rn m W i (nth i (bm_scales (nzs (map (noise_management p) X)) (2 ^ m)) 0) (nth i X [])) in Ei.
        assert (G2 : exists v, In v row /\ within (out_bound p) v = false).
        { clear -Hf. induction row as [|r l IH]; simpl in Hf; [discriminate|]. apply andb_false_iff in Hf as [Q1|Q1].
          - exists r; simpl; auto.
          - destruct (IH Q1) as [r' [A B]]. exists r'; simpl; auto. }
        destruct G2 as [v [Hv Wv]]. apply (In_nth _ _ 0) in Hv as [j [Hj Ej]].
        rewrite <- Ei, raw_length in Hj. exists i, j. repeat split; auto. rewrite Ei, Ej. exact Wv. }
      destruct G as (i & j & Hi & Hj & Wf). exists i, j. split; auto. split; auto.
      assert (Es : nth i (bm_scales (nzs (map (noise_management p) X)) (2 ^ m)) 0 = 1 / nth i (nzs (map (noise_management p) X)) 0 / (2 ^ m)).
      { unfold bm_scales. rewrite (nth_indep _ 0 (1 / 0 / (2 ^ m))) by (rewrite map_length, nms_len; auto).
        exact (map_nth (fun a => 1 / a / (2 ^ m)) _ 0 i). }
      rewrite Es in Wf.
      destruct (nms_at p X Hnm i Hi) as [[Pos Ea]|(Z0 & Ea & F)].
      * rewrite Ea in Wf. pose proof (raw_close p rn W X Hoff Hrn Hin m (2 ^ m) i j D (P1 m) Hi Hj Pos) as C.
        set (a := range_of p (nth i X [])) in *. set (t := nth j (matvec W (nth i X [])) 0) in *.
        set (r := nth j (raw_at p rn m W i (1 / a / 2 ^ m) (nth i X [])) 0) in *.
        unfold within in Wf. destruct (Rltb 0 (out_bound p)) eqn:Ob; [|discriminate]. apply Rltb_true in Ob. split; auto.
        apply Rleb_false in Wf. specialize (P1 m).
        assert (T : out_bound p - conv_err p (nth j W []) < Rabs (1 / a / 2 ^ m * t)).
        { assert (Rabs r <= Rabs (1 / a / 2 ^ m * t) + Rabs (r - 1 / a / 2 ^ m * t)).
          { replace r with (1 / a / 2 ^ m * t + (r - 1 / a / 2 ^ m * t)) at 1 by ring. apply Rabs_triang. }
          assert (C' : Rabs (r - 1 / a / 2 ^ m * t) <= conv_err p (nth j W [])) by exact C.
          assert (Wf' : out_bound p < Rabs r) by exact Wf. lra. }
        assert (Pos' : 0 < a) by exact Pos.
        rewrite Rabs_mult, (Rabs_right (1 / a / 2 ^ m)) in T.
        2: { apply Rle_ge, Rlt_le. unfold Rdiv. rewrite Rmult_1_l. apply Rmult_lt_0_compat; apply Rinv_0_lt_compat; lra. }
        apply Rmult_lt_compat_l with (r := a * 2 ^ m) in T; [|apply Rmult_lt_0_compat; lra].
        replace (a * 2 ^ m * (1 / a / 2 ^ m * Rabs t)) with (Rabs t) in T by (field; lra). exact T.
      * rewrite raw_zero, nth_zeros in Wf by auto. unfold within in Wf.
        destruct (Rltb 0 (out_bound p)) eqn:Ob; [|discriminate]. apply Rltb_true in Ob. apply Rleb_false in Wf. rewrite Rabs_R0 in Wf. lra.
Qed.

(** C24: whatever the noise is, no output exceeds the output range of the ADC times
    the scale of its row. *)
Theorem C24_output_bounded : forall fuel p rn W X Y i j,
  is_perfect p = false -> nm p <> NM_MAX ->
  0 < out_bound p -> matmul fuel p rn W X = Some (Ok Y) -> (i < length X)%nat -> (j < length W)%nat ->
  Rabs (nth j (nth i Y []) 0)
  <= Rabs (out_scale p) * (if Reqb (range_of p (nth i X [])) 0 then 1 else range_of p (nth i X []))
     * (if bm_on p then Rmax 1 (2 * max_bm_factor p) else 1) * out_bound p.
Proof.
  intros fuel p rn W X Y i j NP Hnm Ob E Hi Hj.
  assert (F0 : 0 < (if Reqb (range_of p (nth i X [])) 0 then 1 else range_of p (nth i X []))).
  { destruct (scale_cases p (nth i X []) Hnm) as [(A & _)|(_ & A & _)]; rcase; lra. }
  assert (F1 : 1 <= (if bm_on p then Rmax 1 (2 * max_bm_factor p) else 1)) by (destruct (bm_on p); [apply Rmax_l|lra]).
  apply matmul_inv in E as [(N & T & Z & ->)|(D & k & red & -> & H1 & H2)]; auto.
  - rewrite nth_const by auto.
    rewrite nth_zeros, Rabs_R0. repeat apply Rmult_le_pos; try lra. apply Rabs_pos.
  - assert (Hred : 0 < red <= (if bm_on p then Rmax 1 (2 * max_bm_factor p) else 1)).
    { destruct (bm_on p) eqn:BM.
      - destruct (H2 eq_refl) as (-> & _ & Q). split; [apply pow_lt; lra|]. destruct k as [|k]; [simpl; apply Rmax_l|].
        destruct (Q k ltac:(lia)) as [_ Q2]. unfold bm_stop in Q2. apply orb_false_iff in Q2 as [Q2 _]. apply Rltb_false in Q2.
        eapply Rle_trans; [|apply Rmax_r]. simpl. lra.
      - destruct (H1 eq_refl) as [-> ->]. lra. }
    rewrite entry by (unfold nzs; rewrite ?map_length; auto).
    assert (Ea : nth i (nzs (map (noise_management p) X)) 0 = (if Reqb (range_of p (nth i X [])) 0 then 1 else range_of p (nth i X []))).
    { destruct (nms_at p X Hnm i Hi) as [[Pos E]|(Z & E & _)]; rewrite E; rcase; lra. }
    rewrite Ea. set (a := if Reqb _ _ then _ else _) in *. set (F := if bm_on p then _ else 1) in *.
    rewrite Rabs_mult.
    replace (out_scale p / (1 / a / red)) with (out_scale p * (a * red)) by (field; lra).
    rewrite Rabs_mult, (Rabs_right (a * red)) by (apply Rle_ge, Rlt_le, Rmult_lt_0_compat; lra).
    pose proof (clampb_le (out_bound p) (nth j (raw_at p rn k W i (1 / a / red) (nth i X [])) 0) Ob) as C.
    pose proof (Rabs_pos (out_scale p)).
    apply Rmult_le_compat; try apply Rabs_pos; auto.
    + repeat apply Rmult_le_pos; lra.
    + rewrite Rmult_assoc. apply Rmult_le_compat_l; auto. apply Rmult_le_compat_l; lra.
Qed.
(** A zero input row gives a zero output row (no noise). *)
Theorem C24_zero_row : forall fuel p rn W X Y i j,
  is_perfect p = false -> nm p <> NM_MAX ->
  noise_off p -> rounding_ok rn -> matmul fuel p rn W X = Some (Ok Y) ->
  (i < length X)%nat -> (j < length W)%nat -> Forall (eq 0) (nth i X []) -> nth j (nth i Y []) 0 = 0.
Proof.
  intros fuel p rn W X Y i j NP Hnm Hoff Hrn E Hi Hj F.
  apply matmul_inv in E as [(N & T & Z & ->)|(D & k & red & -> & H1 & H2)]; auto.
  - rewrite nth_const by auto.
    rewrite nth_zeros. reflexivity.
  - now apply entry_zero.
Qed.

(** an example configuration: no noise, 0.25 output resolution *)
Definition io_ex (bm : bool) (n : nm_type) : io :=
  {| is_perfect := false; inp_bound := 0; inp_noise_on := false; inp_res := 0; inp_sto := false; inp_asym := 0;
     out_bound := 2; out_noise_on := false; out_res := 1/4; out_sto := false; out_asym := 0; out_scale := 1;
     bm_on := bm; nm := n; nm_thres := 0; max_bm_factor := 1000; max_bm_res := 1/4 |}.
Definition rn0 : rnd := {| r_in := fun _ _ _ => 0; r_out := fun _ _ _ => 0; r_qin := fun _ _ _ => 0; r_qout := fun _ _ _ => 0 |}.
Lemma rn0_ok : rounding_ok rn0.
Proof. intros k i j. simpl. rewrite Rabs_R0. lra. Qed.
Example C23_nonvacuous : noise_off (io_ex true NM_ABS_MAX) /\ rounding_ok rn0 /\
  (forall x v, In x [[1; -3]] -> In v x -> 0 < inp_bound (io_ex true NM_ABS_MAX) -> Rabs v <= range_of (io_ex true NM_ABS_MAX) x * inp_bound (io_ex true NM_ABS_MAX)).
Proof. split; [repeat split|]. split; [apply rn0_ok|]. simpl. intros; lra. Qed.

(** C22 is false for MAX noise management: inputs without a positive entry whose
    maximum is 0 give an all zero output. *)
Theorem C22_max_noise_management_refuted :
  ~ (forall fuel p rn W X Y i j,
       is_perfect p = false -> nm p = NM_MAX -> nm_thres p <= 0 -> bm_on p = false ->
       noise_off p -> rounding_ok rn -> inp_res p <= 0 -> out_res p <= 0 -> inp_bound p <= 0 -> out_bound p <= 0 ->
       matmul fuel p rn W X = Some (Ok Y) -> (i < length X)%nat -> (j < length W)%nat ->
       nth j (nth i Y []) 0 = out_scale p * nth j (matvec W (nth i X [])) 0).
Proof.
  intros H.
  set (p := {| is_perfect := false; inp_bound := 0; inp_noise_on := false; inp_res := 0; inp_sto := false; inp_asym := 0;
     out_bound := 0; out_noise_on := false; out_res := 0; out_sto := false; out_asym := 0; out_scale := 1;
     bm_on := false; nm := NM_MAX; nm_thres := 0; max_bm_factor := 1000; max_bm_res := 1/4 |}).
  assert (E : matmul 1 p rn0 [[1; 1]] [[-1; 0]] = Some (Ok [[0]])).
  { unfold matmul. simpl. unfold noise_management. simpl. unfold Rltb at 1. destruct (Rlt_dec 0 0); [lra|].
    replace (Rmax (-1) 0) with 0 by mm. unfold Reqb. destruct (Req_EM_T 0 0); [reflexivity|lra]. }
  assert (X : nth 0 (nth 0 [[0]] []) 0 = out_scale p * nth 0 (matvec [[1; 1]] (nth 0 [[-1; 0]] [])) 0).
  { apply (H 1%nat p rn0); try (simpl; lra); try reflexivity; auto.
    - repeat split.
    - apply rn0_ok. }
  simpl in X. lra.
Qed.

(** C25: without noise and bound management, the result of a batch is the list of the
    results of its rows: a sample does not influence the others. *)
Theorem C25_batch_independent : forall fuel p rn W X1 X2 Y1 Y2,
  nm p <> NM_MAX -> bm_on p = false -> noise_off p -> inp_sto p = false -> out_sto p = false -> quant_defined p ->
  matmul fuel p rn W X1 = Some (Ok Y1) -> matmul fuel p rn W X2 = Some (Ok Y2) ->
  matmul fuel p rn W (X1 ++ X2) = Some (Ok (Y1 ++ Y2)).
Proof.
  intros fuel p rn W X1 X2 Y1 Y2 Hnm BM Hoff S1 S2 QD E1 E2.
  set (g := fun x => map (fun v => out_scale p / (1 / (if Rleb (noise_management p x) 0 then 1 else noise_management p x)) * clampb (out_bound p) v)
                   (raw_at p rn0 0 W 0 (1 / (if Rleb (noise_management p x) 0 then 1 else noise_management p x)) x)).
  assert (R0 : forall k i s x, raw_at p rn k W i s x = raw_at p rn0 0 W 0 s x).
  { intros k i s x. destruct Hoff as (N1 & N2 & _). unfold raw_at.
    unfold finalize_raw. rewrite N2, S2.
    assert (Pq : prepare_input p rn k i s x = prepare_input p rn0 0 0 s x).
    { unfold prepare_input. rewrite N1, S1. reflexivity. }
    now rewrite Pq. }
  destruct (is_perfect p) eqn:NP.
  { unfold matmul in *. rewrite NP in *. injection E1 as <-. injection E2 as <-. now rewrite map_app. }
  assert (Gz : nm_tensor p = true -> forall x, noise_management p x = 0 -> g x = map (fun _ => 0) W).
  { intros T x Z. unfold g. rewrite Z.
    assert (A : nm p = NM_ABS_MAX) by (unfold nm_tensor in T; destruct (nm p); try discriminate; congruence).
    assert (F : Forall (eq 0) x \/ nm_thres p <= 0 -> Forall (eq 0) x).
    { intros [F|F]; auto. unfold noise_management in Z. rewrite A, (proj2 (Rltb_false _ _) F) in Z. now apply maxabs_0. }
    assert (F' : Forall (eq 0) x).
    { destruct (Rlt_dec 0 (nm_thres p)) as [Q|Q]; [|apply F; right; lra].
      unfold noise_management in Z. rewrite A, (proj2 (Rltb_true _ _) Q) in Z. apply maxabs_0. pose proof (maxabs_nonneg x). mm. }
    rewrite raw_zero by (auto using rn0_ok). rewrite map_map. apply map_ext. intros _.
    assert (C : clampb (out_bound p) 0 = 0) by (unfold clampb; rcase; auto; mm). rewrite C. ring. }
  assert (M : forall X Y, matmul fuel p rn W X = Some (Ok Y) -> Y = map g X).
  { intros X Y E. apply matmul_inv in E as [(N & T & Z & ->)|(D & k & red & -> & H1 & _)]; auto.
    - apply map_ext_in. intros x Hx. rewrite Forall_forall in Z. symmetry. apply Gz; auto.
    - destruct (H1 BM) as [-> ->]. clear -R0. unfold unscale, analog_mv, bm_scales. cbn [snd].
      assert (G : forall i0, map2 (fun s y => map (Rmult (out_scale p / s)) y)
          (map (fun a => 1 / a / 1) (nzs (map (noise_management p) X)))
          (map (map (clampb (out_bound p)))
            (imap (fun i '(s, x) => finalize_raw p rn 0 i (matvec W (prepare_input p rn 0 i s x))) i0
              (combine (map (fun a => 1 / a / 1) (nzs (map (noise_management p) X))) X))) = map g X).
      { induction X as [|x X IH]; intros i0; simpl; auto. rewrite IH. f_equal. unfold g. rewrite map_map.
        fold (raw_at p rn 0 W i0 (1 / (if Rleb (noise_management p x) 0 then 1 else noise_management p x) / 1) x).
        rewrite R0. unfold Rdiv. rewrite Rinv_1, !Rmult_1_r. reflexivity. }
      apply G. }
  assert (Ok1 : forall X, exists Y, matmul fuel p rn W X = Some (Ok Y) \/ nm p = NM_OTHER).
  { intros X. unfold matmul. rewrite NP, BM, (quant_defined_iff p QD). destruct (nm p) eqn:Nm; try (exists []; right; reflexivity);
      destruct (_ && _ && _); eexists; left; reflexivity. }
  destruct (Ok1 (X1 ++ X2)) as [Y [E|E]].
  - rewrite E. apply M in E, E1, E2. subst. now rewrite map_app.
  - unfold matmul in E1. rewrite NP, E in E1. discriminate.
Qed.
(** With bound management it does: one clipping sample halves the inputs of the
    whole batch, and with a finite resolution this changes the other results. *)
Theorem C25_bound_management_refuted :
  ~ (forall fuel p rn W X1 X2 Y1 Y2,
       nm p <> NM_MAX -> noise_off p -> inp_sto p = false -> out_sto p = false -> quant_defined p ->
       matmul fuel p rn W X1 = Some (Ok Y1) -> matmul fuel p rn W X2 = Some (Ok Y2) ->
       matmul fuel p rn W (X1 ++ X2) = Some (Ok (Y1 ++ Y2))).
Proof.
  intros H. set (p := io_ex true NM_NONE).
  assert (St : quant_step (1/4) 2 = 1) by (unfold quant_step, norm_res; rcase; lra).
  assert (U : forall v, uquant (1/4) 2 0 v = IZR (rhe v)).
  { intros v. unfold uquant. rewrite St. replace (v / 1 + 0) with v by lra. ring. }
  assert (Raw : forall k i s x, raw_at p rn0 k [[1]] i s [x] = [IZR (rhe (s * x))]).
  { intros k i s x. unfold raw_at, prepare_input, finalize_raw, matvec. cbn [imap map dot p io_ex inp_res inp_sto inp_noise_on inp_asym inp_bound out_asym out_noise_on out_res out_bound out_sto].
    rewrite (proj2 (Rltb_false 0 0)) by lra. rewrite (proj2 (Rltb_true 0 (1/4))) by lra.
    unfold clampb. rewrite (proj2 (Rltb_false 0 0)) by lra. f_equal. rewrite U. f_equal. f_equal.
    repeat match goal with |- context [Rltb ?a 0] => destruct (Rltb a 0) end; ring. }
  assert (R1 : rhe 1 = 1%Z) by apply (rhe_IZR 1). assert (R3 : rhe 3 = 3%Z) by apply (rhe_IZR 3).
  assert (Rh : rhe (1/2) = 0%Z) by (apply rhe_small; rewrite Rabs_right; lra).
  assert (R15 : rhe (3/2) = 2%Z).
  { unfold rhe. replace (floorZ (3/2)) with 1%Z by (symmetry; apply floorZ_unique; lra). rcase; [lra|]. rcase; [lra|]. reflexivity. }
  assert (Mv : forall k sc x, analog_mv p rn0 k [[1]] [[x]] [sc] = (Rleb (Rabs (IZR (rhe (sc * x)))) 2, [[clampR (-2) 2 (IZR (rhe (sc * x)))]])).
  { intros. unfold analog_mv. cbn [combine imap]. fold (raw_at p rn0 k [[1]] 0 sc [x]). rewrite Raw. simpl.
    unfold within, clampb. simpl out_bound. rewrite (proj2 (Rltb_true 0 2)) by lra. rewrite !andb_true_r. reflexivity. }
  assert (Mv2 : forall k s1 s2 x y, analog_mv p rn0 k [[1]] [[x]; [y]] [s1; s2] =
     (Rleb (Rabs (IZR (rhe (s1 * x)))) 2 && Rleb (Rabs (IZR (rhe (s2 * y)))) 2,
      [[clampR (-2) 2 (IZR (rhe (s1 * x)))]; [clampR (-2) 2 (IZR (rhe (s2 * y)))]])).
  { intros. unfold analog_mv. cbn [combine imap]. fold (raw_at p rn0 k [[1]] 0 s1 [x]). fold (raw_at p rn0 k [[1]] 1 s2 [y]). rewrite !Raw. simpl.
    unfold within, clampb. simpl out_bound. rewrite (proj2 (Rltb_true 0 2)) by lra. rewrite !andb_true_r. reflexivity. }
  assert (QD : quant_div0 p = false).
  { apply quant_defined_iff. split; simpl; lra. }
  assert (Hs : forall red, bm_stop p red = Rltb 1000 red).
  { intros. unfold bm_stop. simpl inp_res. rewrite (proj2 (Rltb_false 0 0)) by lra. apply orb_false_r. }
  assert (E1 : matmul 2 p rn0 [[1]] [[1]] = Some (Ok [[1]])).
  { unfold matmul. change (is_perfect p) with false. change (nm p) with NM_NONE. cbv iota. change (nm_tensor p) with false.
    rewrite andb_false_r. simpl andb. cbv iota. rewrite QD. change (bm_on p) with true. cbv iota.
    change (map (fun a => if Rleb a 0 then 1 else a) (map (noise_management p) [[1]])) with [if Rleb 1 0 then 1 else 1].
    replace (if Rleb 1 0 then 1 else 1) with 1 by (destruct (Rleb 1 0); auto).
    rewrite bm_loop_step. unfold bm_scales. cbn [map]. rewrite Mv. cbn [fst snd].
    replace (1 / 1 / (1 / 2 * 2) * 1) with 1 by field. rewrite R1. rewrite (proj2 (Rleb_true _ 2)) by (rewrite Rabs_right; lra).
    simpl. rewrite clampR_id by lra. unfold unscale. cbn [map2 map out_scale p io_ex]. do 4 f_equal. field. }
  assert (E2 : matmul 2 p rn0 [[1]] [[3]] = Some (Ok [[4]])).
  { unfold matmul. change (is_perfect p) with false. change (nm p) with NM_NONE. cbv iota. change (nm_tensor p) with false.
    rewrite andb_false_r. simpl andb. cbv iota. rewrite QD. change (bm_on p) with true. cbv iota.
    change (map (fun a => if Rleb a 0 then 1 else a) (map (noise_management p) [[3]])) with [if Rleb 1 0 then 1 else 1].
    replace (if Rleb 1 0 then 1 else 1) with 1 by (destruct (Rleb 1 0); auto).
    rewrite bm_loop_step. unfold bm_scales at 1 2 3. cbn [map]. rewrite Mv. cbn [fst snd].
    replace (1 / 1 / (1 / 2 * 2) * 3) with 3 by field. rewrite R3. rewrite (proj2 (Rleb_false _ 2)) by (rewrite Rabs_right; lra).
    rewrite Hs. rewrite (proj2 (Rltb_false _ _)) by lra. cbn [orb].
    rewrite bm_loop_step. unfold bm_scales. cbn [map]. rewrite Mv. cbn [fst snd].
    replace (1 / 1 / (1 / 2 * 2 * 2) * 3) with (3/2) by field. rewrite R15. rewrite (proj2 (Rleb_true _ 2)) by (rewrite Rabs_right; lra).
    simpl. rewrite clampR_id by lra. unfold unscale. cbn [map2 map out_scale p io_ex]. do 4 f_equal. field. }
  assert (E12 : matmul 2 p rn0 [[1]] [[1]; [3]] = Some (Ok [[0]; [4]])).
  { unfold matmul. change (is_perfect p) with false. change (nm p) with NM_NONE. cbv iota. change (nm_tensor p) with false.
    rewrite andb_false_r. simpl andb. cbv iota. rewrite QD. change (bm_on p) with true. cbv iota.
    change (map (fun a => if Rleb a 0 then 1 else a) (map (noise_management p) [[1]; [3]])) with [if Rleb 1 0 then 1 else 1; if Rleb 1 0 then 1 else 1].
    replace (if Rleb 1 0 then 1 else 1) with 1 by (destruct (Rleb 1 0); auto).
    rewrite bm_loop_step. unfold bm_scales at 1 2 3. cbn [map]. rewrite Mv2. cbn [fst snd].
    replace (1 / 1 / (1 / 2 * 2) * 3) with 3 by field. rewrite R3. rewrite (proj2 (Rleb_false (Rabs 3) 2)) by (rewrite Rabs_right; lra).
    rewrite andb_false_r, Hs. rewrite (proj2 (Rltb_false _ _)) by lra. cbn [orb].
    rewrite bm_loop_step. unfold bm_scales. cbn [map]. rewrite Mv2. cbn [fst snd].
    replace (1 / 1 / (1 / 2 * 2 * 2) * 3) with (3/2) by field. replace (1 / 1 / (1 / 2 * 2 * 2) * 1) with (1/2) by field.
    rewrite R15, Rh. rewrite (proj2 (Rleb_true (Rabs 2) 2)) by (rewrite Rabs_right; lra). rewrite (proj2 (Rleb_true (Rabs 0) 2)) by (rewrite Rabs_right; lra).
    simpl. rewrite !clampR_id by lra. unfold unscale. cbn [map2 map out_scale p io_ex]. do 3 f_equal; [f_equal; field|do 2 f_equal; field]. }
  specialize (H 2%nat p rn0 [[1]] [[1]] [[3]] [[1]] [[4]] ltac:(discriminate) ltac:(repeat split) eq_refl eq_refl ltac:(split; simpl; lra) E1 E2).
  pose proof (eq_trans (eq_sym E12) H) as G. injection G. lra.
Qed.

(** C26: with ABS_MAX noise management the analog product is scale invariant: scaling
    a batch by [c > 0] scales the result by [c], also with noise (the same draws),
    quantization, clipping and bound management. *)
Theorem C26_scale_invariant : forall fuel p rn W X c, 0 < c ->
  is_perfect p = false -> nm p = NM_ABS_MAX -> nm_thres p <= 0 -> Forall (fun x => maxabs x <> 0) X ->
  matmul fuel p rn W (map (map (Rmult c)) X)
  = match matmul fuel p rn W X with
    | Some (Ok Y) => Some (Ok (map (map (Rmult c)) Y))
    | r => r
    end.
Proof.
  intros fuel p rn W X c Hc NP Hnm Hthr NZ.
  assert (MA : forall x, maxabs (map (Rmult c) x) = c * maxabs x).
  { intros x. induction x as [|a x IH]; simpl; [lra|]. rewrite IH, Rabs_mult, (Rabs_right c) by lra. apply RmaxRmult. lra. }
  assert (NM : forall x, noise_management p x = maxabs x).
  { intros x. unfold noise_management. rewrite Hnm, (proj2 (Rltb_false _ _) Hthr). reflexivity. }
  destruct X as [|x0 X0]. { unfold matmul. rewrite NP, Hnm. simpl. unfold nm_tensor. rewrite Hnm.
    destruct (inp_noise_on p); cbn [andb negb forallb]; [|reflexivity]. destruct (quant_div0 p); [reflexivity|].
    destruct (bm_on p); [|reflexivity]. destruct (bm_loop _ _ _ _ _ _ _ _) as [[[k sc] Y]|] eqn:B; [|reflexivity].
    apply bm_loop_spec in B as (n & _ & E & _). injection E as -> -> ->. reflexivity. }
  set (X := x0 :: X0) in *.
  assert (F1 : forall X, X <> [] -> Forall (fun x => maxabs x <> 0) X -> forallb (fun a => Reqb a 0) (map (noise_management p) X) = false).
  { intros [|x Xs] H F; [congruence|]. simpl. rewrite NM, (proj2 (Reqb_false _ _) (Forall_inv F)). reflexivity. }
  assert (NZ' : Forall (fun x => maxabs x <> 0) (map (map (Rmult c)) X)).
  { apply Forall_map. eapply Forall_impl; [|exact NZ]. intros x H. simpl in H. rewrite MA. apply Rmult_integral_contrapositive; split; lra. }
  assert (Nz : forall X, Forall (fun x => maxabs x <> 0) X -> nzs (map (noise_management p) X) = map maxabs X).
  { intros Z F. unfold nzs. rewrite map_map. apply map_ext_in. intros x Hx. rewrite NM. rewrite Forall_forall in F. specialize (F x Hx).
    pose proof (maxabs_nonneg x). rcase; auto; lra. }
  assert (Prep : forall k i red x, red <> 0 -> maxabs x <> 0 -> prepare_input p rn k i (1 / (c * maxabs x) / red) (map (Rmult c) x) = prepare_input p rn k i (1 / maxabs x / red) x).
  { intros k i red x Hr H. unfold prepare_input. rewrite imap_map. apply imap_ext. intros j v _.
    replace (c * v * (1 / (c * maxabs x) / red)) with (v * (1 / maxabs x / red)) by (field; repeat split; lra). reflexivity. }
  assert (Mv : forall k red, red <> 0 -> analog_mv p rn k W (map (map (Rmult c)) X) (bm_scales (map maxabs (map (map (Rmult c)) X)) red)
     = analog_mv p rn k W X (bm_scales (map maxabs X) red)).
  { intros k red Hr. unfold analog_mv.
    assert (L : forall i0 Z, Forall (fun x => maxabs x <> 0) Z ->
      imap (fun i '(s, x) => finalize_raw p rn k i (matvec W (prepare_input p rn k i s x))) i0
        (combine (bm_scales (map maxabs (map (map (Rmult c)) Z)) red) (map (map (Rmult c)) Z))
      = imap (fun i '(s, x) => finalize_raw p rn k i (matvec W (prepare_input p rn k i s x))) i0
        (combine (bm_scales (map maxabs Z) red) Z)).
    { intros i0 Z F. revert i0. induction F as [|x Z Hx F IH]; intros i0; simpl; auto. rewrite MA, Prep by auto. f_equal. apply IH. }
    rewrite L by exact NZ. reflexivity. }
  assert (Un : forall red Y, red <> 0 -> unscale p (bm_scales (map maxabs (map (map (Rmult c)) X)) red) Y
     = map (map (Rmult c)) (unscale p (bm_scales (map maxabs X) red) Y)).
  { intros red Y Hr. unfold unscale, bm_scales. clear -Hr NZ MA Hc. clearbody X. revert Y.
    induction NZ as [|x Z Hx F IH]; intros [|y Y]; simpl; auto. rewrite MA. f_equal; [|apply IH].
    rewrite map_map. apply map_ext. intros v. field. repeat split; lra. }
  unfold matmul. rewrite NP, Hnm. unfold nm_tensor. rewrite Hnm, !andb_true_r.
  rewrite (F1 X) by (auto; discriminate). rewrite (F1 (map (map (Rmult c)) X)) by (auto; discriminate). rewrite !andb_false_r.
  destruct (quant_div0 p); [reflexivity|].
  change (map (fun a => if Rleb a 0 then 1 else a) (map (noise_management p) X)) with (nzs (map (noise_management p) X)).
  change (map (fun a => if Rleb a 0 then 1 else a) (map (noise_management p) (map (map (Rmult c)) X))) with (nzs (map (noise_management p) (map (map (Rmult c)) X))).
  rewrite (Nz X NZ), (Nz _ NZ').
  destruct (bm_on p).
  - assert (B : forall f k red, red <> 0 -> match bm_loop f p rn W (map (map (Rmult c)) X) (map maxabs (map (map (Rmult c)) X)) k red with
        | Some (_, sc, Y) => Some (Ok (unscale p sc Y)) | None => None end
      = match match bm_loop f p rn W X (map maxabs X) k red with | Some (_, sc, Y) => Some (Ok (unscale p sc Y)) | None => None end with
        | Some (Ok Y) => Some (Ok (map (map (Rmult c)) Y)) | r => r end).
    { induction f as [|f IH]; intros k red Hr; [reflexivity|]. rewrite !bm_loop_step.
      assert (red * 2 <> 0) by lra. rewrite Mv by auto. destruct (_ || _); [rewrite Un by auto; reflexivity|apply IH; auto]. }
    apply B. lra.
  - assert (S1 : forall l, map (fun a => 1 / a) l = bm_scales l 1) by (intros l; unfold bm_scales; apply map_ext; intros; lra).
    rewrite !S1, Mv, Un by lra. reflexivity.
Qed.
Example C26_nonvacuous : Forall (fun x => maxabs x <> 0) [[1; -2]; [0; 3]].
Proof. repeat constructor; simpl; mm. Qed.

(** C27: the uniform quantizer (deterministic): the result is the nearest multiple of
    the step, it is monotone, odd and idempotent. *)
Theorem C27_quantizer : forall res bound x y, 0 < res -> 0 < bound ->
  let step := (if Rltb 1 res then 1 / res else res) * (2 * bound) in
  let q := uquant res bound 0 in
  (exists n : Z, q x = IZR n * step)
  /\ Rabs (q x - x) <= step / 2
  /\ (forall n : Z, Rabs (q x - x) <= Rabs (IZR n * step - x))
  /\ (x <= y -> q x <= q y)
  /\ q (- x) = - q x
  /\ q (q x) = q x.
Proof.
  intros res bound x y Hr Hb step q. pose proof (step_pos res bound Hr Hb) as Sp. change (quant_step res bound) with step in Sp.
  assert (Eq : forall v, q v = IZR (rhe (v / step)) * step).
  { intros v. unfold q, uquant. change (quant_step res bound) with step. now rewrite Rplus_0_r. }
  split; [rewrite Eq; eauto|]. 
  assert (Er : Rabs (q x - x) <= step / 2).
  { rewrite Eq. replace (IZR (rhe (x / step)) * step - x) with (step * (IZR (rhe (x / step)) - x / step)) by (field; lra).
    rewrite Rabs_mult, (Rabs_right step) by lra. pose proof (rhe_err (x / step)).
    replace (step / 2) with (step * (1/2)) by field. apply Rmult_le_compat_l; lra. }
  split; [exact Er|]. split.
  { intros n. rewrite Eq. set (m := rhe (x / step)) in *. destruct (Z.eq_dec n m) as [->|Ne]; [lra|].
    rewrite Eq in Er. fold m in Er.
    assert (D : 1 <= Rabs (IZR n - IZR m)).
    { rewrite <- minus_IZR. rewrite <- abs_IZR. apply IZR_le. lia. }
    assert (D2 : step <= Rabs (IZR n * step - IZR m * step)).
    { replace (IZR n * step - IZR m * step) with ((IZR n - IZR m) * step) by ring. rewrite Rabs_mult, (Rabs_right step) by lra.
      rewrite <- (Rmult_1_l step) at 1. apply Rmult_le_compat_r; lra. }
    assert (T : Rabs (IZR n * step - IZR m * step) <= Rabs (IZR n * step - x) + Rabs (IZR m * step - x)).
    { replace (IZR n * step - IZR m * step) with ((IZR n * step - x) + - (IZR m * step - x)) by ring.
      eapply Rle_trans; [apply Rabs_triang|]. rewrite Rabs_Ropp. lra. }
    lra. }
  split.
  { intros H. rewrite !Eq. apply Rmult_le_compat_r; [lra|]. apply IZR_le, rhe_mono. unfold Rdiv. apply Rmult_le_compat_r; auto.
    apply Rlt_le, Rinv_0_lt_compat; auto. }
  split.
  { rewrite !Eq. replace (- x / step) with (- (x / step)) by (field; lra). rewrite rhe_opp, opp_IZR. ring. }
  { rewrite (Eq (q x)), (Eq x). f_equal. f_equal.
    replace (IZR (rhe (x / step)) * step / step) with (IZR (rhe (x / step))) by (field; lra). apply rhe_IZR. }
Qed.
(** Stochastic rounding still gives a multiple of the step, less than one step away. *)
Theorem C27_stochastic : forall res bound u x, 0 < res -> 0 < bound -> Rabs u <= 1/2 ->
  let step := (if Rltb 1 res then 1 / res else res) * (2 * bound) in
  (exists n : Z, uquant res bound u x = IZR n * step) /\ Rabs (uquant res bound u x - x) <= step.
Proof.
  intros res bound u x Hr Hb Hu step. pose proof (step_pos res bound Hr Hb) as Sp. split; [unfold uquant; eauto|].
  eapply Rle_trans; [apply uquant_err; lra|]. rewrite (Rabs_right (quant_step res bound)) by lra.
  change (quant_step res bound) with step in *. rewrite <- (Rmult_1_r step) at 2. apply Rmult_le_compat_l; lra.
Qed.
(** A resolution with an unlimited ([<= 0]) bound of 0 divides by zero, although the
    documentation allows it. *)
Theorem C27_unbounded_converter_refuted :
  ~ (forall fuel p rn W X r, 0 < inp_res p -> inp_bound p <= 0 -> matmul fuel p rn W X = Some r -> is_ok r).
Proof.
  intros H. set (p := {| is_perfect := false; inp_bound := 0; inp_noise_on := false; inp_res := 1; inp_sto := false; inp_asym := 0;
     out_bound := 0; out_noise_on := false; out_res := 0; out_sto := false; out_asym := 0; out_scale := 1;
     bm_on := false; nm := NM_NONE; nm_thres := 0; max_bm_factor := 1000; max_bm_res := 1/4 |}).
  destruct (H 1%nat p rn0 [[1]] [[1]] (Raise ZeroDivisionError)) as [a E]; [simpl; lra|simpl; lra| |discriminate].
  unfold matmul. simpl. unfold quant_div0. simpl. rewrite (proj2 (Rltb_true 0 1)) by lra. rewrite (proj2 (Reqb_true 0 0)) by lra. reflexivity.
Qed.

Print Assumptions C21_bound_management_terminates.
Print Assumptions C21_always_ends.
Print Assumptions C22_perfect_exact.
Print Assumptions C23_error_bound.
Print Assumptions C23_abs_max_fits.
Print Assumptions C22_no_converters_exact.
Print Assumptions C23_bound_management.
Print Assumptions C24_output_bounded.
Print Assumptions C24_zero_row.
Print Assumptions C22_max_noise_management_refuted.
Print Assumptions C25_batch_independent.
Print Assumptions C25_bound_management_refuted.
Print Assumptions C26_scale_invariant.
Print Assumptions C27_quantizer.
Print Assumptions C27_stochastic.
Print Assumptions C27_unbounded_converter_refuted.
