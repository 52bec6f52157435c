(** * Model of the buffered and the chopped transfer device
    Sources (all in /repo/src/rpucuda): rpu_buffered_transfer_device.{h,cpp},
    rpu_chopped_transfer_device.{h,cpp}.  Both are transfer devices (CompModel.v) with a digital
    buffer between the crossbars; the chopped device also flips the signs of rows and columns of
    the first crossbar. *)
From Verif Require Import Prelude Rand DevModel PulseModel CompModel.

(** ** The inherited parts: rpu_transfer_device.cpp:478-516 [transfer] and :539-557
    [finishUpdateCycle] (see CompModel.v) with another [readAndUpdate] ([ru]), [getTransferLR]
    ([lrf]) and [getTransferEvery] ([evf]) *)
Section Generic.
Variable (S_ : Type) (get : S_ -> comp) (put : S_ -> comp -> S_).
Variable ru : nat -> nat -> R -> nat -> nat -> S_ -> M S_.
Variable lrf : comp -> nat -> nat -> R -> R.
Variable evf : comp -> nat -> nat -> nat.
Definition transfer_g (t : tpar) (to from : nat) (cur_lr : R) (s : S_) : M S_ :=
  let ins := in_size t (get s) in
  i0 <~ (if tp_random t then u <~ unif ;; Ret (Z.to_nat (Z.max (Z.min (floorZ (u * INR ins)) (Z.of_nat ins - 1)) 0)) else Ret (nth from (k_slices (get s)) 0%nat)) ;;
  let lr := lrf (get s) to from cur_lr in
  let rest := (ins - i0)%nat in
  let n := Nat.min (tp_reads t) ins in
  s1 <~ (if (rest <? n)%nat then a <~ ru to from lr i0 rest s ;; ru to from lr 0%nat (n - rest)%nat a else ru to from lr i0 n s) ;;
  Ret (put s1 (with_slices (get s1) (set_nth from ((i0 + n) mod ins)%nat (k_slices (get s1))))).
Definition transfers_g (t : tpar) (lr : R) (mb : nat) (s : S_) : M S_ :=
  let n := length (k_parts (get s)) in
  foldMM (fun s j =>
      let every := evf (get s) j mb in
      if (Nat.ltb 0 every && (k_cnt (get s) mod every =? 0)%nat)%bool then transfer_g t (Nat.min (S j) (n - 1)) j lr s else Ret s)
    (seq 0 n) (put s (with_idx (get s) 0 (S (k_cnt (get s))))).
End Generic.

(** change the entries of one column (row) of a matrix; the function gets the other index *)
Definition map_slice (cols : bool) (k : nat) (f : nat -> R -> R) (m : mat) : mat :=
  map (fun ir => map (fun jc => if ((if cols then fst jc else fst ir) =? k)%nat then f (if cols then fst ir else fst jc) (snd jc) else snd jc) (zipi (snd ir))) (zipi m).
(** [MAX(MIN(truncf(omega / granularity), max_steps), -max_steps)] *)
Definition n_steps (maxs : Z) (q : R) : Z := Z.max (Z.min (truncZ q) maxs) (- maxs).
(** readVector with factor 1 (the model of CompModel.v has -1) *)
Definition read_plain (t : tpar) (from : nat) (v : vec) (s : comp) : M vec := out <~ read_slice t from v s ;; Ret (map Ropp out).
Definition out_size (t : tpar) (s : comp) : nat := if tp_columns t then length (k_w s) else length (nth 0 (k_w s) []).

(** ** Buffered transfer *)
(** rpu_buffered_transfer_device.h:24-40: [thres_scale], [step], [momentum], [forget_buffer] *)
Record bpar : Type := { bp_thres : R; bp_step : R; bp_mom : R; bp_forget : bool }.
(** the compound and [transfer_buffer_vec_]: one matrix for every crossbar but the last *)
Record bstate : Type := { b_c : comp; b_buf : list mat }.
Definition with_c (s : bstate) (c : comp) : bstate := {| b_c := c; b_buf := b_buf s |}.
(** rpu_buffered_transfer_device.cpp:46-57 [getTransferLR]: a crossbar with a larger factor moves
    more *)
Definition buf_lr (t : tpar) (c : comp) (to from : nat) (cur : R) : R :=
  let g k := nth k (k_gam c) 0 in
  transfer_lr t from cur * (if (Rltb 0 (g to) && Rltb 0 (g from))%bool then g from / g to else 1).
(** rpu_buffered_transfer_device.cpp:187-198, one entry; [g] is the granularity of the buffer *)
Definition buf_next (p : bpar) (g omega : R) (k : Z) : R :=
  if (k =? 0)%Z then omega
  else if bp_forget p then omega * bp_mom p
  else omega - (1 - Rmax (Rmin (bp_mom p) 1) 0) * IZR k * g.
(** rpu_buffered_transfer_device.cpp:168-211, one column (row).  [desired_BL] of [transfer_up] is
    the largest number of steps. *)
Definition buf_move (t : tpar) (p : bpar) (to from : nat) (lr : R) (s : bstate) (i : nat) : M bstate :=
  let c := b_c s in
  let wg := m_dwmin (fst (nth to (k_parts c) no_part)) in
  let g := bp_thres p * wg in
  let v := unit_vec (in_size t c) i in
  out <~ read_plain t from v c ;;
  let B := nth from (b_buf s) [] in
  let old j := if tp_columns t then at_ B j i else at_ B i j in
  let omega j := old j + nth j out 0 * Rabs lr in
  let k j := n_steps (up_BL (tp_up t)) (omega j / g) in
  let B' := map_slice (tp_columns t) i (fun j _ => buf_next p g (omega j) (k j)) B in
  let ks := map k (seq 0 (out_size t c)) in
  c1 <~ (if existsb (fun z => negb (z =? 0)%Z) ks then write_slice t to (bp_step p * wg) v (map (fun z => - IZR z) ks) c else Ret c) ;;
  Ret {| b_c := c1; b_buf := set_nth from B' (b_buf s) |}.
(** rpu_buffered_transfer_device.cpp:136-213 [readAndUpdate].  The temporary vector has [d_size]
    entries: reading rows of a tile with more columns than rows writes behind its end, which is
    undefined behaviour, here an exception. *)
Definition buf_read (t : tpar) (p : bpar) (to from : nat) (lr : R) (i0 n : nat) (s : bstate) : M bstate :=
  if (Reqb lr 0 || (to =? from)%nat || (length (k_parts (b_c s)) - 1 <=? from)%nat)%bool then Ret s
  else if (Nat.ltb 0 n && (length (k_w (b_c s)) <? out_size t (b_c s))%nat)%bool then Throw IndexError
  else foldMM (buf_move t p to from lr) (seq i0 n) s.
Definition buf_transfer (t : tpar) (p : bpar) := transfer_g bstate b_c with_c (buf_read t p) (buf_lr t) t.
Definition buf_finish (t : tpar) (p : bpar) (lr : R) (mb : nat) (s : bstate) : M bstate :=
  s1 <~ transfers_g bstate b_c with_c (buf_read t p) (buf_lr t) (fun _ => transfer_every t) t lr mb s ;; Ret (with_c s1 (show (KTransfer t) (b_c s1))).
(** A call of the tile: updates, the other calls do not touch the buffers ([onSetWeights] is
    inherited from rpu_transfer_device.cpp:559-601) *)
Definition buf_do (t : tpar) (p : bpar) (s : bstate) (o : cop) : M bstate :=
  match o with
  | CUpdate cs lr mb => c1 <~ foldMM transfer_call cs (b_c s) ;; buf_finish t p lr mb (with_c s c1)
  | _ => c1 <~ cdo (KTransfer t) (b_c s) o ;; Ret (with_c s c1)
  end.

(** ** Chopped transfer *)
(** rpu_chopped_transfer_device.h:22-45: [in_chop_prob], [in_chop_random], [out_chop_prob],
    [correct_gradient_magnitudes], [auto_granularity], [buffer_granularity], [no_buffer],
    [transfer_every]; the rest as in [bpar].  [cp_states] is [getNumStates()] of the crossbars. *)
Record cpar : Type := {
  cp_b : bpar; cp_in_prob : R; cp_in_random : bool; cp_out_prob : R; cp_correct : bool;
  cp_auto_gran : R; cp_gran : R; cp_no_buffer : bool; cp_every : R; cp_states : vec
}.
(** [in_chopper_], [out_chopper_], [transfer_counter_] *)
Record cstate : Type := { s_b : bstate; s_in : list bool; s_out : list bool; s_cnt : nat }.
Definition s_c (s : cstate) : comp := b_c (s_b s).
Definition put_c (s : cstate) (c : comp) : cstate := {| s_b := with_c (s_b s) c; s_in := s_in s; s_out := s_out s; s_cnt := s_cnt s |}.
(** rpu_chopped_transfer_device.cpp:134-146 [getBufferGranularity], :110-125 [getTransferLRScale] *)
Definition chop_gran (p : cpar) (ins : nat) (wg : R) : R :=
  let bg := if Rltb 0 (cp_gran p) then cp_gran p else 1 in
  if Rltb 0 (cp_auto_gran p) then bg * (wg * cp_auto_gran p / (INR ins * Rabs (cp_every p))) else bg * wg.
Definition lr_scale (p : cpar) (ins : nat) (wg_from wg_to lr count_lr : R) : R :=
  if cp_correct p then Rabs lr / count_lr / (chop_gran p ins wg_from * (wg_to / wg_from))
  else Rabs lr / chop_gran p ins wg_from.
Definition flag (l : list bool) (i : nat) : bool := nth i l false.
Definition flip_at (l : list bool) (i : nat) : list bool := set_nth i (negb (flag l i)) l.
(** rpu_chopped_transfer_device.cpp:416-438, one entry *)
Definition chop_next (p : bpar) (maxs : Z) (omega : R) : R * Z :=
  if Rleb 1 (Rabs omega) then
    let k := n_steps maxs omega in
    (if bp_forget p then omega * bp_mom p else omega - (1 - Rmax (Rmin (bp_mom p) 1) 0) * IZR k, k)
  else (omega, 0%Z).
(** rpu_chopped_transfer_device.cpp:444-458: regular or random flip of the chopper of the column
    (row) that was read *)
Definition chop_period (p : cpar) : nat := Z.to_nat (Z.max (ceilZ (1 / cp_in_prob p)) 2).
Definition flip_in (p : cpar) (i : nat) (s : cstate) : M cstate :=
  if Rltb 0 (cp_in_prob p) then
    f <~ (if cp_in_random p then u <~ unif ;; Ret (Rltb u (cp_in_prob p))
          else Ret ((s_cnt s mod chop_period p + 1 =? chop_period p)%nat)) ;;
    Ret (if f then {| s_b := s_b s; s_in := flip_at (s_in s) i; s_out := s_out s; s_cnt := s_cnt s |} else s)
  else Ret s.
(** :460-468 *)
Definition flip_out (p : cpar) (outs : nat) (s : cstate) : M cstate :=
  o <~ foldMM (fun o j => u <~ unif ;; Ret (if Rltb u (cp_out_prob p) then flip_at o j else o)) (seq 0 outs) (s_out s) ;;
  Ret {| s_b := s_b s; s_in := s_in s; s_out := o; s_cnt := s_cnt s |}.
(** rpu_chopped_transfer_device.cpp:357-474 [readAndUpdate]; [count_lr] is the pulse count
    learning rate of the update.  Always from the first to the second crossbar. *)
Definition chop_read (t : tpar) (p : cpar) (count_lr : R) (to from : nat) (lr : R) (i n : nat) (s : cstate) : M cstate :=
  if Reqb lr 0 then Ret s
  else if (negb (to =? 1)%nat && negb (from =? 1)%nat)%bool then Throw RuntimeError
  else if negb (n =? 1)%nat then Throw RuntimeError
  else
    let c := s_c s in
    let ins := in_size t c in
    let wg_to := m_dwmin (fst (nth 1 (k_parts c) no_part)) in
    let sc := lr_scale p ins (m_dwmin (fst (nth 0 (k_parts c) no_part))) wg_to lr count_lr in
    let v := unit_vec ins i in
    out <~ read_plain t 0 v c ;;
    let B := nth 0 (b_buf (s_b s)) [] in
    let old j := if cp_no_buffer p then 0 else if tp_columns t then at_ B j i else at_ B i j in
    let val j := nth j out 0 * sc in
    let omega j := old j + (if Bool.eqb (flag (s_in s) i) (flag (s_out s) j) then val j else - val j) in
    let r j := chop_next (cp_b p) (up_BL (tp_up t)) (omega j) in
    let B' := map_slice (tp_columns t) i (fun j _ => fst (r j)) B in
    let js := seq 0 (out_size t c) in
    c1 <~ (if existsb (fun j => Rleb 1 (Rabs (omega j))) js
           then write_slice t 1 (bp_step (cp_b p) * wg_to) v (map (fun j => - IZR (snd (r j))) js) c else Ret c) ;;
    let s1 := {| s_b := {| b_c := c1; b_buf := set_nth 0 B' (b_buf (s_b s)) |}; s_in := s_in s; s_out := s_out s; s_cnt := s_cnt s |} in
    s2 <~ flip_in p i s1 ;;
    if (i =? ins - 1)%nat then
      s3 <~ (if Rltb 0 (cp_out_prob p) then flip_out p (out_size t c) s2 else Ret s2) ;;
      Ret {| s_b := s_b s3; s_in := s_in s3; s_out := s_out s3; s_cnt := S (s_cnt s3) |}
    else Ret s2.
(** :256-265 [getTransferEvery], :127-132 [getAutoTransferEvery] *)
Definition chop_every (t : tpar) (p : cpar) (c : comp) (from mb : nat) : nat :=
  if Rltb (cp_every p) 0 then Z.to_nat (Z.max 1 (roundf (nth from (cp_states p) 0 / INR (in_size t c) * Rabs (cp_every p))))
  else transfer_every t from mb.
(** the sign of cross point [i], [j] of the first crossbar is flipped:
    rpu_chopped_transfer_device.cpp:476-517 [doSparseUpdate], [doDenseUpdate] *)
Definition chopped (t : tpar) (s : cstate) (i j : nat) : bool :=
  let d_chop := if tp_columns t then s_out s else s_in s in
  let x_chop := if tp_columns t then s_in s else s_out s in
  xorb (flag x_chop j) (flag d_chop i).
Definition chop_call (t : tpar) (s : cstate) (c : call) : call :=
  match c with
  | CSparse i js => CSparse i (map (fun p => (fst p, xorb (snd p) (chopped t s i (fst p)))) js)
  | CDense cs => CDense (map (fun ir => map (fun jc => if chopped t s (fst ir) (fst jc) then (- snd jc)%Z else snd jc) (zipi (snd ir))) (zipi cs))
  end.
(** rpu_chopped_transfer_device.cpp:519-555 [reduceToWeights]: the flat index is split with
    [d_size], although the weights are stored row by row with [x_size] entries *)
Definition chop_show (t : tpar) (s : cstate) : cstate :=
  let c := show (KTransfer t) (s_c s) in
  let g := nth 0 (k_gam c) 0 in
  if (tp_hidden t || Reqb g 0)%bool then put_c s c
  else
    let d_size := length (k_w c) in
    let x_size := length (nth 0 (k_w c) []) in
    let A := vis (snd (nth 0 (k_parts c) no_part)) in
    put_c s (with_w c (map (fun ir => map (fun jc =>
      let idx := (fst ir * x_size + fst jc)%nat in
      let chop := if Bool.eqb (flag (s_in s) (idx / d_size)) (flag (s_out s) (idx mod d_size)) then 1 else -1 in
      snd jc + g * (chop - 1) * at_ A (fst ir) (fst jc)) (zipi (snd ir))) (zipi (k_w c)))).
(** the inherited [transfer] (rpu_transfer_device.cpp:477-516) *)
Definition chop_transfer (t : tpar) (p : cpar) (count_lr : R) := transfer_g cstate s_c put_c (chop_read t p count_lr) (buf_lr t) t.
(** an update with one vector pair: [doSparseUpdate] or [doDenseUpdate], then [finishUpdateCycle] *)
Definition chop_update (t : tpar) (p : cpar) (count_lr : R) (cs : list call) (lr : R) (mb : nat) (s : cstate) : M cstate :=
  c1 <~ foldMM transfer_call (map (chop_call t s) cs) (s_c s) ;;
  s1 <~ transfers_g cstate s_c put_c (chop_read t p count_lr) (buf_lr t) (chop_every t p) t lr mb (put_c s c1) ;;
  Ret (chop_show t s1).
(** rpu_chopped_transfer_device.cpp:91-103 [updateAutoScale]: [m_x_] ([m_d_]) is the average [m] of
    the largest inputs [v] *)
Definition auto_scale (momentum : R) (mb : nat) (m v : R) : R :=
  if Rleb m 0 then v else if Rleb v 0 then m else let tau := (1 - momentum) / INR mb in (1 - tau) * m + tau * v.
(** rpu_chopped_transfer_device.cpp:148-170 [getPulseCountAutoLR], :332-352
    [getPulseCountLearningRate] and rpu_transfer_device.cpp:365-383: the learning rate of the fast
    crossbar *)
Definition count_lr_of (auto scale_fast : bool) (fast_lr lr mx md BL wg : R) : R :=
  if (auto && Rltb 0 fast_lr)%bool then
    let c := fast_lr * (BL * wg) in
    let c := if (Rltb 0 mx && Rltb 0 md)%bool then c / (mx * md) else c in
    if scale_fast then c * lr else c
  else if Rltb 0 fast_lr then (if scale_fast then fast_lr * lr else fast_lr) else lr.
