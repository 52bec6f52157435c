From Verif Require Import Prelude Rand CuModel CuSpec CuProofs.
From Coq Require Import NArith Permutation Lia Lra.

Definition wf_tv (K : nat) (v : tval) : Prop := match v with Some (_, h) => length h = K | None => True end.
Definition norm (K : nat) (v : tval) : bool * list bool := if (K =? 0)%nat then (false, []) else train K v.
Definition word32 (BL K : nat) (v : tval) (i : nat) : N :=
  match v with
  | Some (neg, h) => if (K =? 0)%nat then 0%N else nth i (counts32 neg h K ((BL + 1 + 31) / 32)) 0%N
  | None => 0%N
  end.
Lemma nth_repeat_false k n : nth k (repeat false n) false = false.
Proof. revert k; induction n; destruct k; cbn; auto. Qed.
Lemma norm_length K v : wf_tv K v -> length (snd (norm K v)) = K.
Proof.
  unfold norm, wf_tv. destruct (Nat.eqb_spec K 0) as [-> | E]; [reflexivity |].
  destruct v as [[s h] |]; cbn; [auto | intros; apply repeat_length].
Qed.
Lemma word32_bit BL K v i t : wf_tv K v -> (K <= BL)%nat -> (i < (BL + 1 + 31) / 32)%nat -> (t < 32)%nat ->
  N.testbit (word32 BL K v i) (N.of_nat t) = if ((i =? 0) && (t =? 0))%nat%bool then fst (norm K v) else nth (32 * i + t - 1) (snd (norm K v)) false.
Proof.
  intros W L Hi Ht. unfold word32, norm.
  destruct (Nat.eqb_spec K 0) as [E | E].
  - destruct v as [[s h] |]; rewrite N.bits_0; cbn [fst snd];
      destruct (32 * i + t - 1)%nat; destruct (_ && _)%bool; reflexivity.
  - destruct v as [[s h] |]; cbn [train fst snd].
    + apply counts32_bit; assumption.
    + rewrite N.bits_0, nth_repeat_false. destruct (_ && _)%bool; reflexivity.
Qed.
Lemma pulses_norm K x d :
  pulses K x d = map (fun _ => xorb (fst (norm K x)) (fst (norm K d)))
      (filter (fun k => (nth k (snd (norm K x)) false && nth k (snd (norm K d)) false)%bool) (seq 0 K)).
Proof. unfold pulses, norm. destruct (Nat.eqb_spec K 0) as [-> | E]; reflexivity. Qed.

(** ** what a load stands for *)
Definition lp (l : load) : list bool :=
  if l_mixed l then map (fun t => N.testbit (l_neg l) (N.of_nat t)) (filter (fun t => N.testbit (l_n l) (N.of_nat t)) (seq 0 32))
  else repeat (0 <? l_neg l)%N (N.to_nat (l_n l)).
Lemma land1 a : N.land a 1 = if N.testbit a 0 then 1%N else 0%N.
Proof.
  change 1%N with (N.ones 1) at 1. rewrite N.land_ones. change (2 ^ 1)%N with 2%N.
  rewrite <- N.bit0_mod. destruct (N.testbit a 0); reflexivity.
Qed.
Lemma sum_nat_cons a l : sum_nat (a :: l) = (a + sum_nat l)%nat.
Proof. reflexivity. Qed.

Lemma filter_seq_head f n : length (filter f (seq 0 (S n))) = ((if f 0%nat then 1 else 0) + length (filter f (seq 1 n)))%nat.
Proof. cbn [seq filter]. destruct (f 0%nat); reflexivity. Qed.

Lemma kept_repeat os b n : (os = 0 \/ os = 1 \/ os = -1)%Z ->
  kept os (repeat b n) = if (os =? 0)%Z then repeat b n else if (os =? 1)%Z then (if b then repeat true n else []) else (if b then [] else repeat true n).
Proof.
  intros [-> | [-> | ->]]; unfold kept; cbn.
  - reflexivity.
  - destruct b; induction n; cbn; congruence.
  - destruct b; induction n; cbn; congruence.
Qed.

Lemma lp_getn32 os nK K x d (fx fd : nat -> bool) : (os = 0 \/ os = 1 \/ os = -1)%Z -> (0 < nK)%nat -> (K <= 32 * nK - 1)%nat ->
  (forall i t, (i < nK)%nat -> (t < 32)%nat -> N.testbit (x i) (N.of_nat t) = fx (32 * i + t)%nat) ->
  (forall i t, (i < nK)%nat -> (t < 32)%nat -> N.testbit (d i) (N.of_nat t) = fd (32 * i + t)%nat) ->
  (forall k, (K <= k)%nat -> fx (S k) = false) ->
  lp (getn32 os nK x d) = kept os (map (fun _ => xorb (fx 0%nat) (fd 0%nat)) (filter (fun k => (fx (S k) && fd (S k))%bool) (seq 0 K))).
Proof.
  intros Ho Hn HK Hx Hd Hz.
  assert (PC : forall i, (i < nK)%nat -> popc (N.land (x i) (d i)) = length (filter (fun t => (fx (32 * i + t)%nat && fd (32 * i + t)%nat)%bool) (seq 0 32))).
  { intros i Hi. unfold popc. f_equal. apply filter_ext_seq. intros t Ht. rewrite N.land_spec, Hx, Hd by lia. reflexivity. }
  set (n := (popc (N.land (x 0%nat) (d 0%nat)) - N.to_nat (N.land (N.land (x 0%nat) (d 0%nat)) 1)
            + sum_nat (map (fun i => popc (N.land (x i) (d i))) (seq 1 (nK - 1))))%nat).
  assert (EN : n = length (filter (fun k => (fx (S k) && fd (S k))%bool) (seq 0 K))).
  { set (h := fun k => (fx k && fd k)%bool).
    assert (S1 : sum_nat (map (fun i => popc (N.land (x i) (d i))) (seq 0 nK)) = length (filter h (seq 0 (32 * nK)))).
    { rewrite <- sum_nat_words. f_equal. apply map_ext_in. intros i Hi. apply in_seq in Hi. apply PC. lia. }
    destruct nK as [| nK']; [lia |]. cbn [seq map] in S1. rewrite sum_nat_cons in S1.
    unfold n. replace (S nK' - 1)%nat with nK' by lia.
    assert (B0 : N.to_nat (N.land (N.land (x 0%nat) (d 0%nat)) 1) = if h 0%nat then 1%nat else 0%nat).
    { rewrite land1. pose proof (Hx 0%nat 0%nat ltac:(lia) ltac:(lia)) as A. pose proof (Hd 0%nat 0%nat ltac:(lia) ltac:(lia)) as B.
      change (N.of_nat 0) with 0%N in A, B. rewrite N.land_spec, A, B.
      replace (32 * 0 + 0)%nat with 0%nat by lia. unfold h. destruct (_ && _)%bool; reflexivity. }
    assert (L0 : (N.to_nat (N.land (N.land (x 0%nat) (d 0%nat)) 1) <= popc (N.land (x 0%nat) (d 0%nat)))%nat).
    { rewrite B0. rewrite PC by lia. rewrite (filter_seq_head _ 31).
      replace (32 * 0 + 0)%nat with 0%nat by lia. change (fx 0%nat && fd 0%nat)%bool with (h 0%nat). destruct (h 0%nat); lia. }
    assert (S2 : length (filter h (seq 0 (32 * S nK'))) = ((if h 0%nat then 1 else 0) + length (filter (fun k => (fx (S k) && fd (S k))%bool) (seq 0 K)))%nat).
    { replace (32 * S nK')%nat with (S (K + (32 * S nK' - 1 - K)))%nat by lia.
      rewrite filter_seq_head.
      assert (T : length (filter h (seq 1 (K + (32 * S nK' - 1 - K)))) = length (filter (fun k => (fx (S k) && fd (S k))%bool) (seq 0 K))).
      { rewrite length_filter_shift, seq_app, filter_app, app_length.
        rewrite (filter_none _ (seq (0 + K) _)).
        - cbn [length]. rewrite Nat.add_0_r. reflexivity.
        - intros a Ha. apply in_seq in Ha. unfold h. change (1 + a)%nat with (S a). rewrite Hz by lia. reflexivity. }
      rewrite T. reflexivity. }
    rewrite S2 in S1. rewrite B0 in *. clear -S1 L0.
    set (A := popc _) in *. set (B := sum_nat _) in *. destruct (h 0%nat); lia. }
  rewrite map_const_repeat, <- EN, kept_repeat by assumption.
  assert (NEG : N.lxor (N.land (x 0%nat) 1) (N.land (d 0%nat) 1) = if xorb (fx 0%nat) (fd 0%nat) then 1%N else 0%N).
  { rewrite !land1. pose proof (Hx 0%nat 0%nat ltac:(lia) ltac:(lia)) as A. pose proof (Hd 0%nat 0%nat ltac:(lia) ltac:(lia)) as B.
    change (N.of_nat 0) with 0%N in A, B. rewrite A, B. replace (32 * 0 + 0)%nat with 0%nat by lia.
    destruct (fx 0%nat), (fd 0%nat); reflexivity. }
  unfold getn32. fold n. rewrite NEG. clear -Ho.
  destruct Ho as [-> | [-> | ->]]; destruct (xorb (fx 0%nat) (fd 0%nat)); unfold lp;
    cbn [l_mixed l_n l_neg andb N.eqb Z.eqb Z.opp Pos.eqb]; rewrite ?Nnat.Nat2N.id; reflexivity.
Qed.
