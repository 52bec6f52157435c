(** * Quantizers: vocabulary of the theorems *)
From Verif Require Import Prelude ConvModel QuantModel.

(** reasonable arguments: a positive [eps], at least one bit *)
Definition q_sane (c : qcfg) : Prop := 0 < qc_eps c /\ (1 <= qc_bits c)%nat.

(** the range that a grid has to represent for the given limits: it always contains
    zero and a positive number *)
Definition covers (c : qcfg) (sg : bool) (mn mx x : R) : Prop :=
  match qc_meth c with
  | Asym => Rmin mn 0 <= x <= Rmax mx (qc_eps c)
  | Sym => (if sg then - Rmax (Rabs (Rmin mn 0)) (Rmax mx (qc_eps c)) <= x else 0 <= x)
           /\ x <= Rmax (Rabs (Rmin mn 0)) (Rmax mx (qc_eps c))
  end.
(** number of steps on the positive side, and the step size *)
Definition levels_up (c : qcfg) (sg : bool) : R :=
  match qc_meth c with
  | Asym => 2 ^ qc_bits c - 1
  | Sym => if sg then 2 ^ (qc_bits c - 1) - 1 else 2 ^ qc_bits c - 1
  end.
Definition step (c : qcfg) (sg : bool) (mn mx : R) : R :=
  let d := match qc_meth c with
           | Asym => (Rmax mx (qc_eps c) - Rmin mn 0) / levels_up c sg
           | Sym => Rmax (Rabs (Rmin mn 0)) (Rmax mx (qc_eps c)) / levels_up c sg
           end in
  if qc_log c then d else Rmax d (qc_eps c).
(** a symmetric quantizer is signed iff some lower limit is negative *)
Definition is_signed (c : qcfg) (mns : vec) : bool :=
  match qc_meth c with Asym => false | Sym => existsb (fun m => Rltb m 0) mns end.

(** all calibration batches are per tensor and not empty, or all per row with [n] rows *)
Definition fits (pc : bool) (n : nat) (x : mat) : Prop :=
  if pc then length x = n /\ Forall (fun r : list R => r <> []) x else concat x <> [] /\ n = 1%nat.
(** the data of channel [i] of a batch *)
Definition channel (pc : bool) (i : nat) (x : mat) : vec := if pc then nth i x [] else concat x.
(** the history of forward calls on a new manager in training mode *)
Definition after (m : qman) (xs : list mat) : qman := fold_left man_step (map MForward xs) m.
(** one limit for the tensor, or one per row *)
Definition lim (l : vec) (i : nat) : R := match l with [m] => m | _ => nth i l 0 end.
Definition elem (x : mat) (i j : nat) : R := nth j (nth i x []) 0.
Definition is_elem (x : mat) (i j : nat) : Prop := (i < length x /\ j < length (nth i x []))%nat.
(** all data of channel [i] in the batches [xs] *)
Definition in_data (pc : bool) (i : nat) (xs : list mat) (v : R) : Prop := exists x, In x xs /\ In v (channel pc i x).

(** ** Layers with quantized weights *)
(** a new layer: training mode, not quantized, caching on *)
Definition hij_new (c : qcfg) (e : est) (w : mat) (h : hij) : Prop :=
  exists m, man_new c e None = Ok m /\ h = {| h_w := w; h_man := m; h_quant := false; h_caching := true; h_cache := None |}.
(** weights and quantizer are only changed in training mode or with caching switched
    off, and ranges are not estimated in evaluation mode *)
Definition proper (h : hij) (o : hop) : Prop :=
  match o with
  | HSgd _ => m_train (h_man h) = true \/ h_caching h = false
  | HMan (MTrain _) | HMan MEstimate => False
  | HMan _ => m_train (h_man h) = true \/ h_caching h = false
  | _ => True
  end.
Inductive proper_run : hij -> list hop -> hij -> Prop :=
| PR0 : forall h, proper_run h [] h
| PRs : forall h o h' ops, proper h o -> proper_run (h_step h o) ops h' -> proper_run h (o :: ops) h'.

(** ** MSE range estimator *)
Fixpoint mse_run (c : qcfg) (n : nat) (margin : R) (s : option mse) (xs : list vec) : res (option mse * option (R * R)) :=
  match xs with
  | [] => Ok (s, None)
  | [x] => r <- mse_step c n margin s x ;; Ok (Some (fst r), Some (snd r))
  | x :: r => m <- mse_step c n margin s x ;; mse_run c n margin (Some (fst m)) r
  end.
