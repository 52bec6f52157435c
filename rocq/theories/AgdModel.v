(** * The dynamic transfer device (AGAD)
    Source: /repo/src/rpucuda/rpu_dynamic_transfer_device.{h,cpp}, a chopped transfer device
    (TransModel.v) whose reads are compared with the mean of the reads of the last chopper period.

    Here the digital part: what is read from the fast crossbar is arbitrary and part of an event
    ([e_val]), what is sent to the slow crossbar is recorded.  So the theorems hold for all devices,
    all noise and all pulsed updates of the fast crossbar in between.  Matrices are functions of the
    slice (the column or row that is read) and the entry in it. *)
From Verif Require Import Prelude Rand DevModel PulseModel CompModel TransModel.
Local Open Scope R_scope.

Definition gvec := nat -> R.
Definition gmat := nat -> nat -> R.
Definition gput {A} (f : nat -> A) (k : nat) (v : A) : nat -> A := fun j => if (j =? k)%nat then v else f j.

(** rpu_dynamic_transfer_device.h:28-36; [a_cp]: the parameters of the chopped device, [a_in], [a_out]:
    number of slices and their length, [a_BL]: [desired_BL] of [transfer_update], [a_dwA], [a_dwC]: the
    granularities of the crossbars.  The [experimental_fast_lr_feedback] cannot be set from Python
    and is left out *)
Record acfg : Type := {
  a_cp : cpar; a_in : nat; a_out : nat; a_tail : R; a_cap : R; a_cacc : bool; a_BL : Z; a_dwA : R; a_dwC : R }.
(** rpu_dynamic_transfer_device.cpp:38-48, rpu_chopped_transfer_device.cpp:64-87: what is refused *)
Definition accepted (momentum : R) (reads : Z) (randomly : bool) (reset : R) (c : acfg) : bool :=
  (Rltb 0 (cp_in_prob (a_cp c)) && Rltb momentum 1 && Rltb 0 momentum && (reads =? 1)%Z && negb randomly && negb (Rltb 0 reset))%bool.
(** rpu_dynamic_transfer_device.cpp:50-59 [getNumInChopSamples] *)
Definition n_samples (c : acfg) : nat := if Rltb 0 (cp_in_prob (a_cp c)) then chop_period (a_cp c) else 2%nat.
(** :242 *)
Definition weight_of (c : acfg) : R := Rmin (a_tail c / INR (n_samples c)) 1.

(** A read, for the record: slice, factor, sign, reference, what was read, the steps made of it, whether
    they were sent, whether the chopper was switched afterwards *)
Record ard : Type := { q_k : nat; q_lr : R; q_sign : gvec; q_ref : gvec; q_val : gvec; q_steps : nat -> Z; q_sent : bool; q_sw : bool }.
(** [transfer_buffer_vec_[0]], [running_mean_], [past_mean_], [in_chopper_], [out_chopper_],
    [in_chopper_switched_], [transfer_counter_], [current_slice_indices_[0]], [current_update_idx_],
    and the record of the reads (latest first) *)
Record ast : Type := {
  g_H : gmat; g_mean : gmat; g_past : gmat; g_in : nat -> bool; g_out : nat -> bool; g_sw : nat -> bool;
  g_cnt : nat; g_idx : nat; g_upd : nat; g_log : list ard }.
(** rpu_dynamic_transfer_device.cpp:167-192, rpu_chopped_transfer_device.cpp:239-254 [populate] *)
Definition a_init : ast :=
  {| g_H := fun _ _ => 0; g_mean := fun _ _ => 0; g_past := fun _ _ => 0; g_in := fun _ => false; g_out := fun _ => false; g_sw := fun _ => false;
     g_cnt := 0; g_idx := 0; g_upd := 0; g_log := [] |}.

(** :248-255 with rpu_chopped_transfer_device.cpp:110-125 *)
Definition a_scale (c : acfg) (cnt : nat) (lr count_lr : R) : R :=
  let s := lr_scale (a_cp c) (a_in c) (a_dwA c) (a_dwC c) lr count_lr in
  if a_cacc c then s / Rmin (INR (cnt mod n_samples c + 1)) (1 / a_dwA c) else s.
(** :293-305, one entry: what stays in the buffer, and the steps *)
Definition a_next (c : acfg) (omega : R) : R * Z :=
  if Rleb 1 (Rabs omega) then
    let k := n_steps (a_BL c) omega in
    let cap := IZR (a_BL c) * a_cap c in
    ((if bp_forget (cp_b (a_cp c)) then omega * bp_mom (cp_b (a_cp c))
      else let o := omega - (1 - bp_mom (cp_b (a_cp c))) * IZR k in if Rltb 0 cap then Rmin (Rmax o (- cap)) cap else o), k)
  else (omega, 0%Z).
(** rpu_dynamic_transfer_device.cpp:196-338 [readAndUpdate] of slice [k]; [val] is what was read,
    [coin] the random number.  Only single reads, always from the first to the second crossbar *)
Definition a_read (c : acfg) (lr count_lr : R) (k : nat) (val : gvec) (coin : R) (s : ast) : ast :=
  if Reqb lr 0 then s
  else
    let ns := n_samples c in
    let sample := (g_cnt s mod ns + 1)%nat in
    let b := weight_of c in
    let was := g_sw s k in
    let sc := a_scale c (g_cnt s) lr count_lr in
    let ref := if was then g_mean s k else g_past s k in
    let sg j := if Bool.eqb (g_in s k) (g_out s j) then 1 else -1 in
    let omega j := g_H s k j + sg j * (val j - ref j) * sc in
    let r j := a_next c (omega j) in
    let nz := existsb (fun j => Rleb 1 (Rabs (omega j))) (seq 0 (a_out c)) in
    let sent := (nz && (ns <? g_cnt s)%nat)%bool in
    let switch := ((sample =? ns)%nat || (cp_in_random (a_cp c) && Rltb coin (cp_in_prob (a_cp c))))%bool in
    {| g_H := gput (g_H s) k (fun j => fst (r j));
       g_mean := gput (g_mean s) k (fun j => g_mean s k j * (1 - b) + val j * b);
       g_past := gput (g_past s) k ref;
       g_in := (if switch then gput (g_in s) k (negb (g_in s k)) else g_in s); g_out := g_out s;
       g_sw := gput (g_sw s) k switch;
       g_cnt := (if (k =? a_in c - 1)%nat then S (g_cnt s) else g_cnt s);
       g_idx := g_idx s; g_upd := g_upd s;
       g_log := {| q_k := k; q_lr := sc; q_sign := sg; q_ref := ref; q_val := val; q_steps := fun j => snd (r j); q_sent := sent; q_sw := switch |} :: g_log s |}.
(** rpu_transfer_device.cpp:477-516 [transfer] with one sequential read *)
Definition a_transfer (c : acfg) (lr count_lr : R) (val : gvec) (coin : R) (s : ast) : ast :=
  let i := g_idx s in
  let s1 := a_read c lr count_lr i val coin s in
  {| g_H := g_H s1; g_mean := g_mean s1; g_past := g_past s1; g_in := g_in s1; g_out := g_out s1; g_sw := g_sw s1;
     g_cnt := g_cnt s1; g_idx := ((i + 1) mod a_in c)%nat; g_upd := g_upd s1; g_log := g_log s1 |}.
(** rpu_transfer_device.cpp:324-329 [resetCounters], called when the weights are set (:559-601);
    the buffers, means and choppers are left as they are *)
Definition a_reset (s : ast) : ast :=
  {| g_H := g_H s; g_mean := g_mean s; g_past := g_past s; g_in := g_in s; g_out := g_out s; g_sw := g_sw s;
     g_cnt := g_cnt s; g_idx := 0; g_upd := 0; g_log := g_log s |}.
Definition a_count (s : ast) : ast :=
  {| g_H := g_H s; g_mean := g_mean s; g_past := g_past s; g_in := g_in s; g_out := g_out s; g_sw := g_sw s;
     g_cnt := g_cnt s; g_idx := g_idx s; g_upd := S (g_upd s); g_log := g_log s |}.
(** A vector update (rpu_transfer_device.cpp:539-557 [finishUpdateCycle]; [every] is
    [getTransferEvery], zero: never), or setting the weights *)
Inductive aev : Type := AUp (lr count_lr : R) (every : nat) (val : gvec) (coin : R) | ASet.
Definition a_step (c : acfg) (s : ast) (e : aev) : ast :=
  match e with
  | AUp lr count_lr every val coin =>
      let s1 := a_count s in
      if (Nat.ltb 0 every && (g_upd s1 mod every =? 0)%nat)%bool then a_transfer c lr count_lr val coin s1 else s1
  | ASet => a_reset s
  end.
Definition a_run (c : acfg) (s : ast) (h : list aev) : ast := fold_left (a_step c) h s.

(** ** Hidden weights and extra state
    The hidden weights of this device: the matrices in row-major order, first those of the crossbars
    ([base], rpu_transfer_device.cpp), then buffer, running mean, past mean
    (rpu_dynamic_transfer_device.cpp:365-453).  [xs], [ds]: the sizes of the tile; a matrix is stored
    with [x_size] entries in a row, a slice is a column (row) of it (:226-228, [i_w]) *)
Definition w_index (cols : bool) (xs : nat) (k j : nat) : nat := if cols then (j * xs + k)%nat else (k * xs + j)%nat.
Definition to_flat (cols : bool) (xs ds : nat) (m : gmat) : vec :=
  map (fun p => if cols then m (p mod xs)%nat (p / xs)%nat else m (p / xs)%nat (p mod xs)%nat) (seq 0 (xs * ds)).
Definition of_flat (cols : bool) (xs : nat) (l : vec) : gmat := fun k j => nth (w_index cols xs k j) l 0.
(** getDeviceParameter (:381-405) *)
Definition a_hidden (cols : bool) (xs ds : nat) (base : list vec) (s : ast) : list vec :=
  base ++ [to_flat cols xs ds (g_H s); to_flat cols xs ds (g_mean s); to_flat cols xs ds (g_past s)].
(** setDeviceParameter (:455-473): the last three of [nb + 3] matrices *)
Definition a_set_hidden (cols : bool) (xs : nat) (nb : nat) (data : list vec) (s : ast) : ast :=
  {| g_H := of_flat cols xs (nth nb data []); g_mean := of_flat cols xs (nth (nb + 1) data []); g_past := of_flat cols xs (nth (nb + 2) data []);
     g_in := g_in s; g_out := g_out s; g_sw := g_sw s; g_cnt := g_cnt s; g_idx := g_idx s; g_upd := g_upd s; g_log := g_log s |}.
(** setHiddenWeights (:428-453): the same from one array, [sz] numbers for each matrix *)
Definition a_set_flat (cols : bool) (xs ds : nat) (nb : nat) (data : vec) (s : ast) : ast :=
  let sz := (xs * ds)%nat in let off := (nb * sz)%nat in
  {| g_H := of_flat cols xs (slice off (off + sz) data); g_mean := of_flat cols xs (slice (off + sz) (off + 2 * sz) data); g_past := of_flat cols xs (slice (off + 2 * sz) (off + 3 * sz) data);
     g_in := g_in s; g_out := g_out s; g_sw := g_sw s; g_cnt := g_cnt s; g_idx := g_idx s; g_upd := g_upd s; g_log := g_log s |}.
(** dumpExtra / loadExtra (:475-503, rpu_chopped_transfer_device.cpp:267-299,
    rpu_transfer_device.cpp:659-700, rpu_vector_device.cpp:327-357) *)
Record aextra : Type := { x_in : nat -> bool; x_out : nat -> bool; x_sw : nat -> bool; x_cnt : nat; x_idx : nat; x_upd : nat }.
Definition a_dump (s : ast) : aextra := {| x_in := g_in s; x_out := g_out s; x_sw := g_sw s; x_cnt := g_cnt s; x_idx := g_idx s; x_upd := g_upd s |}.
Definition a_load (x : aextra) (s : ast) : ast :=
  {| g_H := g_H s; g_mean := g_mean s; g_past := g_past s; g_in := x_in x; g_out := x_out x; g_sw := x_sw x;
     g_cnt := x_cnt x; g_idx := x_idx x; g_upd := x_upd x; g_log := g_log s |}.
