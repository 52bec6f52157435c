(** * Model of the translation of the pulse trains into the packed order
    /repo/src/rpucuda/cuda/update_management_helper.cu:97-234
    [kernelTranslateTransFormatToBatchOrder64Format<ublm, T>] ([T] threads per block), for one of the values of x or d: its 32 bit words, one per sample,
    become the packed 64 bit words.  The threads of a block run between the barriers in any
    order (they only OR into shared memory, so the order of the list does not matter).  Not
    modelled: overflow of the counters; the end of the shared buffers (with [BL < 32] the words
    of a block are fewer than [T]). *)
From Verif Require Import Prelude Rand CuModel.
From Coq Require Import NArith.

(** update_management_helper.cu:461-486 [kernelGetKBlockAggregate]: the exclusive sums of the
    lengths within block [r], and their total *)
Definition kc_block (Ks : nat -> nat) (T m r j : nat) : nat :=
  kc_values (fun i => if (r * T + i <? m)%nat then Ks (r * T + i)%nat else 0%nat) j.
(** update_management_helper.cu:52-74 [getBlockAggregate] of block [r] *)
Definition block_aggregate (ublm : bool) (Ks : nat -> nat) (T BL m r : nat) : nat :=
  if ublm then kc_block Ks T m r T
  else if (m <=? T + r * T)%nat then (m mod T * BL)%nat else (T * BL)%nat.
(** update_management_helper.cu:85-95 [getCurrentKc]; [agg] is [Kc_aggregate] *)
Definition tr_kc (ublm : bool) (Ks : nat -> nat) (T BL m r agg b : nat) : nat :=
  if ublm then kc_block Ks T m r (b - r * T) else (b * BL - agg)%nat.
(** update_management_helper.cu:183-211: what one thread ORs into a shared buffer *)
Definition thread_words (c : N) (K Kc : nat) : list (nat * N) :=
  ((Kc / 32)%nat, w32 (N.shiftl c (N.of_nat (Kc mod 32))))
    :: (if (Kc / 32 =? (Kc + K) / 32)%nat then [] else [(((Kc + K) / 32)%nat, N.shiftr c (32 - N.of_nat (Kc mod 32)))]).
(** the state kept between the blocks (update_management_helper.cu:152-157); [t_c], [t_neg] are
    the left-over words of the thread that writes them back ([threadIdx.x == current_nB], where
    the outer [current_nB] stays 0) *)
Record tstate : Type := { t_total : nat; t_agg : nat; t_left : nat; t_c : N; t_neg : N }.
(** update_management_helper.cu:159-232: one block of the batch; [cnt b] is the word of sample
    [b].  The results are the stores and the next state. *)
Definition tr_block (ublm : bool) (Ks : nat -> nat) (T BL m : nat) (cnt : nat -> N) (r : nat) (s : tstate) : list (nat * N) * tstate :=
  let samples := filter (fun b => (b <? m)%nat) (seq (r * T) T) in
  let kc := fun b => (tr_kc ublm Ks T BL m r (t_agg s) b + t_left s)%nat in
  let c_shared := fold_left atomic_or
    (flat_map (fun b => thread_words (N.shiftr (cnt b) 1) (get_K ublm Ks BL b) (kc b)) samples) (fun i => if (i =? 0)%nat then t_c s else 0%N) in
  let neg_shared := fold_left atomic_or
    (flat_map (fun b => thread_words (if N.testbit (cnt b) 0 then N.shiftr (N.ones 32) (32 - N.of_nat (get_K ublm Ks BL b)) else 0%N) (get_K ublm Ks BL b) (kc b)) samples)
    (fun i => if (i =? 0)%nat then t_neg s else 0%N) in
  let agg := (block_aggregate ublm Ks T BL m r + t_left s)%nat in
  let agg' := (t_agg s + agg)%nat in
  let nB := (agg / 32)%nat in
  let last := (m <=? r * T + T)%nat in
  let left := (agg' mod 32)%nat in
  let n := if (last && (0 <? left)%nat)%bool then S nB else nB in
  let saves := (negb last && (0 <? left)%nat && (nB =? 0)%nat)%bool in
  (map (fun i => ((t_total s + i)%nat, N.lor (N.shiftl (neg_shared i) 32) (c_shared i))) (seq 0 n),
   {| t_total := (t_total s + nB)%nat; t_agg := agg'; t_left := left;
      t_c := if saves then c_shared 0%nat else t_c s; t_neg := if saves then neg_shared 0%nat else t_neg s |}).
Fixpoint tr_blocks (ublm : bool) (Ks : nat -> nat) (T BL m : nat) (cnt : nat -> N) (n r : nat) (s : tstate) : list (nat * N) :=
  match n with
  | O => []
  | S n' => let q := tr_block ublm Ks T BL m cnt r s in fst q ++ tr_blocks ublm Ks T BL m cnt n' (S r) (snd q)
  end.
(** the loop [for (tid_stride = 0; tid_stride < m_batch; tid_stride += blockDim.x)] *)
Definition translate (ublm : bool) (Ks : nat -> nat) (T BL m : nat) (cnt : nat -> N) : list (nat * N) :=
  tr_blocks ublm Ks T BL m cnt ((m + T - 1) / T) 0 {| t_total := 0; t_agg := 0; t_left := 0; t_c := 0; t_neg := 0 |}.
