(** * Buffered and chopped transfer: vocabulary of the theorems *)
From Verif Require Import Prelude Rand DevModel DevSpec PulseModel PulseSpec CompModel CompSpec TransModel.

(** [k] is the number of whole steps in [q], at most [maxs], with the sign of [q] *)
Definition whole_steps (maxs : Z) (q : R) (k : Z) : Prop :=
  (Z.abs k <= maxs)%Z /\ Rabs (IZR k) <= Rabs q /\ 0 <= IZR k * q /\ ((Z.abs k < maxs)%Z -> Rabs q < Rabs (IZR k) + 1).
Definition buf_at (s : bstate) (from i j : nat) : R := at_ (nth from (b_buf s) []) i j.
(** the buffers have the size of the tile *)
Definition buf_sized (n m : nat) (s : bstate) : Prop :=
  length (b_buf s) = (length (k_parts (b_c s)) - 1)%nat /\ Forall (fun B => dims B = repeat n m) (b_buf s).
(** the digital part of one entry of a transfer: of [omega], [k] whole steps of size [g] are
    written, and [b] stays in the buffer *)
Definition accounted (p : bpar) (maxs : Z) (g omega b : R) (k : Z) : Prop :=
  whole_steps maxs (omega / g) k /\
  (k = 0%Z -> b = omega) /\
  (k <> 0%Z -> b = if bp_forget p then omega * bp_mom p else omega - (1 - Rmax (Rmin (bp_mom p) 1) 0) * IZR k * g).
Definition bhistory (t : tpar) (p : bpar) (s : bstate) (os : list cop) (s' : bstate) : Prop := yields (foldMM (buf_do t p) os s) s'.
(** the size of the steps that are taken out of buffer number [from] *)
Definition buf_gran (p : bpar) (c : comp) (from : nat) : R := bp_thres p * m_dwmin (fst (part_at c (S from))).
(** the outputs of the analog read are at most [o] (as with an output bound of the ADC) *)
Definition read_bounded (t : tpar) (o : R) : Prop := forall w x out j, yields (tp_read t w x) out -> Rabs (nth j out 0) <= o.
(** ** Choppers *)
(** the choppers of the columns (of the rows): the in-choppers belong to what is read *)
Definition col_chop (t : tpar) (s : cstate) (j : nat) : bool := nth j (if tp_columns t then s_in s else s_out s) false.
Definition row_chop (t : tpar) (s : cstate) (i : nat) : bool := nth i (if tp_columns t then s_out s else s_in s) false.
(** the sign of cross point [i], [j] of the first crossbar: -1 if exactly one of its two choppers
    is active *)
Definition sign_at (t : tpar) (s : cstate) (i j : nat) : R := if Bool.eqb (row_chop t s i) (col_chop t s j) then 1 else -1.
Definition cbuf_at (s : cstate) (i j : nat) : R := buf_at (s_b s) 0 i j.
(** the documented factor of what is read (compounds.py, [ChoppedTransferCompound]: final_transfer_lr,
    with [thres_scale] 1) *)
Definition final_transfer_lr (p : cpar) (ins : nat) (dwA dwC lr fast_lr : R) : R :=
  let base := (if Rltb 0 (cp_gran p) then cp_gran p else 1) * dwA * (if Rltb 0 (cp_auto_gran p) then cp_auto_gran p / (INR ins * Rabs (cp_every p)) else 1) in
  if cp_correct p then Rabs lr / (base * (dwC / dwA)) / fast_lr else Rabs lr / base.
(** the documented recursion of the buffer: of [h] the whole steps [k] are sent, [h'] stays *)
Definition recursion (p : bpar) (maxs : Z) (h h' : R) (k : Z) : Prop :=
  (Rabs h < 1 -> k = 0%Z /\ h' = h) /\
  (1 <= Rabs h -> whole_steps maxs h k /\ h' = if bp_forget p then bp_mom p * h else h - (1 - Rmax (Rmin (bp_mom p) 1) 0) * IZR k).
Definition rect_of {A} (n m : nat) (w : list (list A)) : Prop := dims w = repeat n m.
(** the weight of a tile with a chopped device: the factors times the weights of the crossbars, the
    first one with its signs taken back *)
Definition signed_sum (t : tpar) (s : cstate) (i j : nat) : R :=
  sumR (map (fun k => nth k (k_gam (s_c s)) 0 * (if (k =? 0)%nat then sign_at t s i j else 1) * part_weight (s_c s) k i j) (seq 0 (length (k_parts (s_c s))))).
(** the crossbars have the size of the tile ([m] rows of [n] weights) and each has a factor *)
Definition chop_sized (n m : nat) (s : cstate) : Prop := rect_of n m (k_w (s_c s)) /\ Forall (fun q => rect_of n m (d_cells (snd q))) (k_parts (s_c s)) /\ length (k_gam (s_c s)) = length (k_parts (s_c s)) /\ (0 < length (k_parts (s_c s)))%nat.
