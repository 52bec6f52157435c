(** * Mixed precision: vocabulary of the theorems *)
From Verif Require Import Prelude Rand DevModel DevSpec PulseModel PulseSpec CompModel CompSpec MixModel.

Definition chi_at (s : mstate) (i j : nat) : R := at_ (x_chi s) i j.
Definition mhistory (p : mpar) (s : mstate) (os : list mop) (s' : mstate) : Prop := yields (foldMM (mix_do p) os s) s'.
(** the tile has [m] rows of [n] weights *)
Definition mix_sized (n m : nat) (s : mstate) : Prop :=
  (0 < m)%nat /\ dims (x_chi s) = repeat n m /\ dims (d_cells (snd (x_part s))) = repeat n m.
(** what quantization with [nb] bins may make of the vector [v]: [nb / 2] steps on each side of 0, up
    to the largest entry; the nearest step, or one of the two next to the value with stochastic
    rounding; no quantization for [nb <= 0] *)
Definition quantized (nb : Z) (sto : bool) (v q : vec) : Prop :=
  length q = length v /\
  if (nb <=? 0)%Z then q = v
  else let w := maxabs v / IZR (nb / 2) in
    forall k, (exists z, nth k q 0 = IZR z * w) /\ Rabs (nth k q 0) <= maxabs v /\ Rabs (nth k q 0 - nth k v 0) <= (if sto then w else w / 2).
(** the numbers of bins that make sense together *)
Definition bins_ok (p : mpar) : Prop := (mp_xb p <= 0 /\ mp_db p <= 0)%Z \/ (2 <= mp_xb p /\ 2 <= mp_db p)%Z.
(** [chi'] is [chi] plus the learning rate times the outer product of the (quantized) vectors *)
Definition accumulated (p : mpar) (lr : R) (x d : vec) (chi chi' : mat) : Prop :=
  exists qx qd, quantized (mp_xb p) (mp_stox p) x qx /\ quantized (mp_db p) (mp_stod p) d qd /\
    dims chi' = dims chi /\ forall i j, (i < length d)%nat -> (j < length x)%nat -> at_ chi' i j = at_ chi i j + lr * nth i qd 0 * nth j qx 0.
(** a cross point gets at most [desired_BL] pulses in the direction of [amount] *)
Definition written (u : upar) (mt : meta) (amount : R) (c c' : cell) : Prop :=
  exists k, (Z.of_nat k <= up_BL u)%Z /\ yields (pulses mt k (Rltb amount 0) c) c' /\ (amount = 0 -> c' = c).
(** the whole multiples of [g] in [v], rounded towards 0 *)
Definition whole (g v : R) (k : Z) : Prop := Rabs (IZR k * g) <= Rabs v /\ Rabs (v - IZR k * g) < g /\ 0 <= IZR k * v.
(** the number of rows of a transfer *)
Definition transfer_rows (p : mpar) (m n : nat) : Prop := if (mp_rows p <? 0)%Z then n = m else n = Nat.min (Z.to_nat (mp_rows p)) m.
(** effect of a transfer of [n] rows from row [start] *)
Definition transferred (p : mpar) (u : upar) (m start n : nat) (s s' : mstate) : Prop :=
  fst (x_part s') = fst (x_part s) /\
  forall i j c, cell_at (d_cells (snd (x_part s))) i j = Some c ->
    exists c', cell_at (d_cells (snd (x_part s'))) i j = Some c' /\
      (addressed m start n i -> exists k, whole (x_gran s) (chi_at s i j) k /\ chi_at s' i j = chi_at s i j - IZR k * x_gran s /\
         written u (fst (x_part s)) (- (mp_lr p * (IZR k * x_gran s))) c c') /\
      (~ addressed m start n i -> chi_at s' i j = chi_at s i j /\ c' = c).
(** number of updates since the weights were set last *)
Definition counts (o : mop) (n : nat) : nat :=
  match o with MUpdate _ lr _ _ _ => if Reqb lr 0 then n else S n | MOp (OSet _) => 0%nat | MOp _ => n end.
Definition updates_since (os : list mop) (n : nat) : nat := fold_left (fun n o => counts o n) os n.
(** the calls have the size of the tile *)
Definition mop_fits (n m : nat) (o : mop) : Prop :=
  match o with
  | MUpdate _ _ x d _ => length x = n /\ length d = m
  | MOp (OSet w) | MOp (OFloat w) => dims w = repeat n m
  | MOp _ => True
  end.
(** update number [cnt] (counted from 0) with batch size [mb] starts a transfer *)
Definition due (p : mpar) (mb cnt : nat) : Prop :=
  (0 < mp_every p * Z.of_nat mb)%Z /\ (0 < cnt)%nat /\ exists k, Z.of_nat cnt = (k * (mp_every p * Z.of_nat mb))%Z.
(** half the width of a bin, the whole width with stochastic rounding *)
Definition q_error (nb : Z) (sto : bool) (v : vec) : R := if (nb <=? 0)%Z then 0 else let w := maxabs v / IZR (nb / 2) in if sto then w else w / 2.
(** number of transfers in a history that starts after [cnt] updates *)
Definition is_due (p : mpar) (mb cnt : nat) : bool := ((0 <? mp_every p * Z.of_nat mb)%Z && existsb (fun k => (Z.of_nat cnt =? Z.of_nat k * (mp_every p * Z.of_nat mb))%Z) (seq 1 cnt))%bool.
Fixpoint transfers (p : mpar) (os : list mop) (cnt : nat) : nat :=
  match os with
  | [] => 0%nat
  | o :: os => (match o with MUpdate _ lr _ _ mb => if Reqb lr 0 then 0 else if is_due p mb cnt then 1 else 0 | MOp _ => 0 end + transfers p os (counts o cnt))%nat
  end.
(** the updates have parameters that make sense, and the weights are not set *)
Definition mop_sensible (p : mpar) (o : mop) : Prop :=
  match o with MUpdate u _ _ _ _ => sensible u /\ (stochastic u /\ mp_lr p <> 0 \/ 0 < mp_lr p) | MOp (OSet _) => False | MOp _ => True end.
(** number of entries that are 0 *)
Definition zero_count (v : vec) : nat := length (filter (fun a => Reqb a 0) v).
(** the contribution of one update to the sparsity *)
Definition sparsity_of (qx qd : vec) : R := INR (zero_count qd * zero_count qx) / INR (length qx * length qd).
(** [zs] becomes [zs']: the contributions of the updates since the weights were set last *)
Inductive contributions (p : mpar) : list mop -> list R -> list R -> Prop :=
| CNil zs : contributions p [] zs zs
| CUpdate u lr x d mb os zs zs' qx qd : lr <> 0 -> quantized (mp_xb p) (mp_stox p) x qx -> quantized (mp_db p) (mp_stod p) d qd ->
    contributions p os (zs ++ [sparsity_of qx qd]) zs' -> contributions p (MUpdate u lr x d mb :: os) zs zs'
| CSkip u x d mb os zs zs' : contributions p os zs zs' -> contributions p (MUpdate u 0 x d mb :: os) zs zs'
| CSet w os zs zs' : contributions p os [] zs' -> contributions p (MOp (OSet w) :: os) zs zs'
| COther o os zs zs' : (forall w, o <> OSet w) -> contributions p os zs zs' -> contributions p (MOp o :: os) zs zs'.
