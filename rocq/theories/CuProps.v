(** * The pulsed update on the GPU *)
From Verif Require Import Prelude Rand CuModel CuSpec CuProofs CuProofs2 CuProofs3 CuProofs4 CuProofs5 CuProofs6 CuProofs7.
From Coq Require Import NArith Permutation Lia Lra.

(** C207: without cycle-to-cycle noise every kernel gives the weight at which one arrives by
    applying the pulses of the batch one after the other, whatever the lengths of the trains,
    the number of words, the layouts of the input and of the buffers and the order in which
    the threads write *)
Definition is_side (os : Z) : Prop := (os = 0 \/ os = 1 \/ os = -1)%Z.
Definition sane (p : cpar) : Prop := p_min p <= p_max p /\ 0 <= p_down p /\ 0 <= p_up p.
Theorem C207_words : forall k p os ublm Ks BL m xsz dsz trx trd ox od vx vd opsx opsd xi di w,
  sane p -> is_side os -> stride_ok k -> p_min p <= w <= p_max p -> (xi < xsz)%nat -> (di < dsz)%nat ->
  (forall b, (b < m)%nat -> get_K ublm Ks BL b <= BL)%nat ->
  (forall b, (b < m)%nat -> slots (get_K ublm Ks BL b) (vx b xi) /\ slots (get_K ublm Ks BL b) (vd b di)) ->
  Permutation opsx (flat_map (ops32 ublm Ks BL m xsz trx ox vx) (seq 0 (m * xsz))) ->
  Permutation opsd (flat_map (ops32 ublm Ks BL m dsz trd od vd) (seq 0 (m * dsz))) ->
  run_kernel k p 0 w (loads32 os BL m xsz dsz ox od (run32 opsx) (run32 opsd) xi di)
  = Ret (apply_pulses (p_min p) (p_max p) (p_down p) (p_up p) w
           (kept os (all_pulses (get_K ublm Ks BL) (fun b => vx b xi) (fun b => vd b di) m))).
Proof.
  intros k p os ublm Ks BL m xsz dsz trx trd ox od vx vd opsx opsd xi di w (S1 & S2 & S3) Ho Hk Hw Hx Hd HK HW Px Pd.
  rewrite run_kernel_ok; try assumption.
  - rewrite (loads32_pulses os ublm Ks BL m xsz dsz trx trd ox od vx vd); try assumption. reflexivity.
  - intros l Hl. unfold loads32 in Hl. apply in_map_iff in Hl. destruct Hl as (b & <- & _). apply wf_getn32. exact Ho.
Qed.
Theorem C207_bits : forall k p os ublm Ks BL m xsz dsz trx trd vx vd opsx opsd xi di w,
  sane p -> is_side os -> stride_ok k -> p_min p <= w <= p_max p -> (xi < xsz)%nat -> (di < dsz)%nat ->
  (forall b, (b < m)%nat -> get_K ublm Ks BL b <= 32)%nat ->
  (forall b i, (b < m)%nat -> (i < xsz)%nat -> slots (get_K ublm Ks BL b) (vx b i)) ->
  (forall b i, (b < m)%nat -> (i < dsz)%nat -> slots (get_K ublm Ks BL b) (vd b i)) ->
  Permutation opsx (flat_map (ops64 ublm Ks BL m xsz trx vx) (seq 0 (m * xsz))) ->
  Permutation opsd (flat_map (ops64 ublm Ks BL m dsz trd vd) (seq 0 (m * dsz))) ->
  run_kernel k p 0 w (loads64 os (get_nB ublm Ks BL m) xsz dsz (run64 opsx) (run64 opsd) xi di)
  = Ret (apply_pulses (p_min p) (p_max p) (p_down p) (p_up p) w
           (kept os (all_pulses (get_K ublm Ks BL) (fun b => vx b xi) (fun b => vd b di) m))).
Proof.
  intros k p os ublm Ks BL m xsz dsz trx trd vx vd opsx opsd xi di w (S1 & S2 & S3) Ho Hk Hw Hx Hd HK Wx Wd Px Pd.
  rewrite run_kernel_ok; try assumption.
  - rewrite (loads64_pulses os ublm Ks BL m xsz dsz trx trd vx vd); try assumption. reflexivity.
  - intros l Hl. unfold loads64 in Hl. apply in_map_iff in Hl. destruct Hl as (b & <- & _). apply wf_getn64.
Qed.
(** what a batch of two samples does: the first gives an up pulse (the trains meet in the first
    of three slots), the second a down pulse *)
Example C207_nontrivial :
  let vx := fun b (_ : nat) => if (b =? 0)%nat then Some (true, [true; true; false]) else Some (false, [true; false; false]) in
  let vd := fun (_ _ : nat) => Some (false, [true; false; true]) in
  all_pulses (fun _ => 3%nat) (fun b => vx b 0%nat) (fun b => vd b 0%nat) 2 = [true; false]
  /\ ops32 false (fun _ => 0%nat) 3 2 1 false true vx 0 = [(0%nat, 7%N)]
  /\ ops64 false (fun _ => 0%nat) 3 2 1 false vx 1 = [(0%nat, 8%N)]
  /\ (forall b, (b < 2)%nat -> get_K false (fun _ => 0%nat) 3 b <= 3)%nat
  /\ apply_pulses (-1) 1 (1/4) (1/2) (3/4) [true; false] = 3/4.
Proof.
  split; [reflexivity |]. split; [reflexivity |]. split; [reflexivity |]. split; [intros; cbn; lia |].
  unfold apply_pulses, one_step, clampR, Rmin, Rmax. cbn [fold_left]. rcases; lra.
Qed.
Example C207_nontrivial_long :
  counts32 true (repeat true 33) 33 2 = [4294967295%N; 3%N]
  /\ counts64 true [true; false; true] 3 30 0 = [(0%nat, 13835058056355905536%N); (1%nat, 4294967297%N)].
Proof. vm_compute. split; reflexivity. Qed.

(** C208: every weight and every value is handled exactly once, whatever the number of threads *)
Theorem C208_grid : forall total n idx, (0 < total)%nat -> (idx < n)%nat ->
  exists! tr : nat * nat, (fst tr < total)%nat /\ grid_index total n (fst tr) (snd tr) = Some idx.
Proof. exact grid_unique. Qed.
Theorem C208_grid_range : forall total n tid r idx, grid_index total n tid r = Some idx -> (idx < n)%nat.
Proof.
  intros total n tid r idx H. unfold grid_index in H. cbv zeta in H. destruct (_ <? n)%nat; [| discriminate].
  destruct (Nat.ltb_spec (tid + r * total) n); [| discriminate]. inversion H; subst. assumption.
Qed.
Theorem C208_shared : forall grid xb xsz dsz idx, (0 < grid)%nat -> (0 < xb)%nat -> (0 < dsz)%nat -> (idx < xsz * dsz)%nat ->
  exists! brt : nat * nat * nat, (fst (fst brt) < grid)%nat /\ (snd brt < xb * 32)%nat /\
    shared_index grid xb xsz dsz (fst (fst brt)) (snd (fst brt)) (snd brt) = Some idx.
Proof. exact shared_unique. Qed.
Theorem C208_shared_range : forall grid xb xsz dsz blk r t idx, shared_index grid xb xsz dsz blk r t = Some idx -> (idx < xsz * dsz)%nat.
Proof.
  intros grid xb xsz dsz blk r t idx H. unfold shared_index in H. cbv zeta in H.
  destruct (_ <? _)%nat in H; [| discriminate]. destruct (still_running _ _ _ _ _ _); [| discriminate].
  destruct (Nat.ltb_spec (x_start grid xb dsz blk r + t / 32) xsz); [| discriminate].
  destruct (Nat.ltb_spec (32 * ((blk + r * grid) mod ((dsz + 31) / 32)) + t mod 32) dsz); [| discriminate].
  cbn [andb] in H. injection H as H. rewrite <- H.
  assert (G : forall x d, (x < xsz)%nat -> (d < dsz)%nat -> (x * dsz + d < xsz * dsz)%nat).
  { clear. intros x d Hx Hd. apply Nat.lt_le_trans with (S x * dsz)%nat; [cbn; lia | apply Nat.mul_le_mono_r; lia]. }
  apply G; assumption.
Qed.
(** the threads of the bit line maker are split so that both vectors are served *)
Theorem C208_split : forall grid xs ds, (2 <= grid)%nat -> (0 < xs)%nat -> (0 < ds)%nat ->
  (0 < fst (split_blocks grid xs ds) /\ 0 < snd (split_blocks grid xs ds) /\ fst (split_blocks grid xs ds) + snd (split_blocks grid xs ds) = grid)%nat.
Proof. exact split_ok. Qed.
Example C208_nontrivial : grid_index 4 10 1 2 = Some 9%nat /\ grid_index 4 10 2 2 = None
  /\ shared_index 2 2 5 40 1 2 1 = Some 193%nat /\ shared_index 2 2 5 40 0 3 0 = None /\ split_blocks 8 30 1 = (7%nat, 1%nat).
Proof. vm_compute. repeat split; reflexivity. Qed.

(** C209: the noise of a word with pulses of both directions *)
(** without the bound check the noise of a run of [n] pulses is that of [n] single steps: it
    has the standard deviation [sqrt n] steps *)
Theorem C209_run_noise : forall p sigma w n neg w', 0 < sigma -> (0 < n)%nat ->
  (yields (const_step p sigma w n neg) w' <->
   exists g, w' = Rmax (Rmin (w + (if (0 <? neg)%N then p_up p else - p_down p) * (INR n + sqrt (INR n) * sigma * g)) (p_max p)) (p_min p)).
Proof.
  intros p sigma w n neg w' Hs Hn. unfold const_step. rewrite (proj2 (Rltb_true 0 sigma)) by assumption.
  set (dw := if (0 <? neg)%N then p_up p else - p_down p).
  assert (CL : forall v, (let w2 := if Rltb (p_max p) v then p_max p else v in if Rltb w2 (p_min p) then p_min p else w2) = Rmax (Rmin v (p_max p)) (p_min p)).
  { intros v. cbv zeta. unfold Rltb, Rmax, Rmin. rcases; lra. }
  assert (IN : 0 < INR n) by (apply lt_0_INR; assumption).
  assert (SQ : INR n * / sqrt (INR n) = sqrt (INR n)).
  { rewrite <- (sqrt_sqrt (INR n)) at 1 by lra. field. apply Rgt_not_eq. apply sqrt_lt_R0. exact IN. }
  destruct (Nat.eqb_spec n 1) as [-> | E]; cbn [bindM]; split.
  - intros H. inversion H as [| | k g a H' |]; subst. exists g. cbn [bindM] in H'. inversion H'; subst. rewrite CL.
    cbn [INR]. rewrite sqrt_1. f_equal. f_equal. ring.
  - intros [g ->]. apply (y_gauss _ g). cbn [bindM]. rewrite CL. cbn [INR]. rewrite sqrt_1.
    replace (dw * (1 + 1 * sigma * g)) with (dw * (1 + g * sigma)) by ring. constructor.
  - intros H. inversion H as [| | k g a H' |]; subst. exists g. cbn [bindM] in H'. inversion H'; subst. rewrite CL.
    rewrite <- SQ at 2. f_equal. f_equal. ring.
  - intros [g ->]. apply (y_gauss _ g). cbn [bindM]. rewrite CL.
    replace (dw * (INR n + sqrt (INR n) * sigma * g)) with (dw * INR n * (1 + / sqrt (INR n) * (g * sigma))); [constructor |].
    rewrite <- SQ at 2. ring.
Qed.
(** with the bound check the random numbers are drawn and not used: the weight is the same for
    all draws, and the steps are longer by [sqrt n * sigma] *)
Theorem C209_noise_lost_refuted : forall p sigma w l w' shared bs, 0 < sigma -> l_mixed l = true -> shared = KSumBC \/ (shared = KSharedSumBC bs /\ (0 < bs)%nat) ->
  let up := INR (length (filter (fun b => b) (lp l))) in
  let down := INR (length (filter negb (lp l))) in
  p_min p <= w - (down + sqrt down * sigma) * p_down p -> w + (up + sqrt up * sigma) * p_up p <= p_max p ->
  (yields (run_kernel shared p sigma w [l]) w' <-> w' = w - (down + sqrt down * sigma) * p_down p + (up + sqrt up * sigma) * p_up p).
Proof.
  intros p sigma w l w' shared bs Hs HM K up down B1 B2.
  assert (E : yields (run_kernel shared p sigma w [l]) w' <-> yields (sum_loop true p sigma w [l]) w').
  { destruct K as [-> | [-> Hb]]; [reflexivity |]. cbn [run_kernel]. unfold strides. cbn [length].
    replace ((1 + bs - 1) / bs)%nat with 1%nat by (replace (1 + bs - 1)%nat with bs by lia; symmetry; apply Nat.div_same; lia).
    cbn [seq map Nat.mul skipn]. rewrite (firstn_all2 [l]) by (cbn; lia). cbn [foldMM].
    assert (B : forall m : M R, yields (bindM m (fun b => Ret b)) w' <-> yields m w').
    { clear. induction m as [a | k IH | k IH | k IH | e]; cbn [bindM]; split; intros H; try (inversion H; subst; fail); try assumption;
        inversion H; subst; econstructor; try eassumption; apply IH; eassumption. }
    apply B. }
  rewrite E. unfold sum_loop. cbn [foldMM]. unfold inner. rewrite HM. unfold bound_check. unfold flush at 1. cbn [k_sum k_w]. change (0 <? 0)%nat with false. cbn [bindM].
  rewrite (proj2 (Rltb_true 0 sigma)) by assumption. rewrite popc_pos, popc_neg by assumption. cbn [andb].
  assert (FIN : forall a b r, a = down + sqrt down * sigma -> b = up + sqrt up * sigma ->
     (yields (s <~ (s <~ (if (Rleb (p_min p) (w - a * p_down p) && Rleb (w + b * p_up p) (p_max p))%bool
        then Ret {| k_w := w - (a * p_down p - b * p_up p); k_sum := 0; k_last := 0 |}
        else bit_loop p sigma l {| k_w := w; k_sum := 0; k_last := 0 |}) ;; Ret s) ;; flush p sigma s) r
     <-> r = w - (down + sqrt down * sigma) * p_down p + (up + sqrt up * sigma) * p_up p)).
  { intros a b r -> ->. rewrite (proj2 (Rleb_true _ _) B1), (proj2 (Rleb_true _ _) B2). cbn [andb bindM]. unfold flush. cbn [k_sum k_w]. change (0 <? 0)%nat with false.
    split; intros H; [inversion H; subst; lra | rewrite H; replace (_ - _ + _) with (w - ((down + sqrt down * sigma) * p_down p - (up + sqrt up * sigma) * p_up p)) by lra; constructor]. }
  assert (GA : forall (m : M R), (yields (Gauss (fun _ => m)) w' <-> yields m w')).
  { intros m. split; intros H; [inversion H; subst; assumption | apply (y_gauss _ 0); assumption]. }
  assert (ZZ : forall n : nat, n = 0%nat -> INR n + sqrt (INR n) * sigma = INR n) by (intros n ->; cbn [INR]; rewrite sqrt_0; ring).
  fold up down. destruct (Nat.ltb_spec 0 (length (filter negb (lp l)))) as [P | P]; destruct (Nat.ltb_spec 0 (length (filter (fun b => b) (lp l)))) as [Q | Q]; cbn [bindM].
  - rewrite GA, GA. apply FIN; reflexivity.
  - rewrite GA. apply FIN; [reflexivity | symmetry; apply ZZ; lia].
  - rewrite GA. apply FIN; [symmetry; apply ZZ; lia | reflexivity].
  - apply FIN; symmetry; apply ZZ; lia.
Qed.
(** nine down pulses and four up pulses of one word, noise 0.5: always 10.5 steps down and 5 up,
    where the kernel without the check adds noise of mean 0 to 9 and 4 *)
Example C209_nontrivial :
  let l := {| l_n := 8191; l_neg := 15; l_mixed := true |} in
  length (filter negb (lp l)) = 9%nat /\ length (filter (fun b => b) (lp l)) = 4%nat
  /\ getn64 0 (8191 + 2 ^ 32 * 15) (N.ones 32) = l
  /\ (let p := {| p_min := -1; p_down := 1/100; p_max := 1; p_up := 1/100 |} in
      -1 <= 0 - (INR 9 + sqrt (INR 9) * (1/2)) * p_down p /\ 0 + (INR 4 + sqrt (INR 4) * (1/2)) * p_up p <= 1).
Proof.
  cbv zeta. split; [vm_compute; reflexivity |]. split; [vm_compute; reflexivity |]. split; [vm_compute; reflexivity |].
  cbn [p_down p_up]. replace (INR 9) with (3 * 3) by (cbn; lra). replace (INR 4) with (2 * 2) by (cbn; lra).
  rewrite !sqrt_square by lra. lra.
Qed.

Print Assumptions C207_words.
Print Assumptions C207_bits.
Print Assumptions C208_grid.
Print Assumptions C208_grid_range.
Print Assumptions C208_shared.
Print Assumptions C208_shared_range.
Print Assumptions C208_split.
Print Assumptions C209_run_noise.
Print Assumptions C209_noise_lost_refuted.
