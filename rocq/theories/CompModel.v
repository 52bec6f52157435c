(** * Model of the compound devices of the simulator core
    Sources (all in /repo/src/rpucuda): rpu_vector_device.{h,cpp}, rpu_onesided_device.{h,cpp},
    rpu_transfer_device.{h,cpp}.  A compound device has several crossbars of single devices
    (DevModel.v) and shows a weighted sum of their weights to the tile.  The parts are single
    pulsed devices here; compounds of compounds are not modelled. *)
From Verif Require Import Prelude Rand DevModel PulseModel.

Definition at_ (m : mat) (i j : nat) : R := nth j (nth i m []) 0.
Fixpoint set_nth {A} (n : nat) (a : A) (l : list A) : list A :=
  match n, l with
  | _, [] => []
  | O, _ :: r => a :: r
  | S n', b :: r => b :: set_nth n' a r
  end.
Definition set_at (m : mat) (i j : nat) (v : R) : mat := set_nth i (set_nth j v (nth i m [])) m.
(** [weights_vec_[k]]: the weights of one of the crossbars *)
Definition vis (d : dev) : mat := map (map c_w) (d_cells d).
(** one of the crossbars with its meta parameters *)
Definition part := (meta * dev)%type.
Definition no_part : part :=
  ({| m_dwmin := 0; m_std := 0; m_wn := 0; m_wn_on_set := false; m_rstd := 0 |}, {| d_cells := []; d_now := 0; d_fresh := true |}).
Definition part_op (o : op) (s : part) : M part := d <~ do_op (fst s) (snd s) o ;; Ret (fst s, d).

(** rpu_vector_device.h:20 [VectorDeviceUpdatePolicy] *)
Inductive policy : Type := All | SingleFixed | SingleSequential | SingleRandom.
(** rpu_onesided_device.h:22-29 with the two [w_max] that [refreshWeights] reads
    (rpu_onesided_device.cpp:303-310).  [rf_read] is the forward pass with [refresh_io]: a random
    program that gets the weights and the input vector. *)
Record refr : Type := {
  rf_every : nat; rf_mb : bool; rf_upper : R; rf_lower : R; rf_wmaxp : R; rf_wmaxm : R;
  rf_up : upar; rf_read : mat -> vec -> M vec
}.
(** rpu_transfer_device.h:60-80 after [initializeWithSize]: [transfer_columns],
    [n_reads_per_transfer], [transfer_every_vec], [units_in_mbatch], [transfer_lr_vec],
    [scale_transfer_lr], [with_reset_prob], [random_selection], [fullyHidden()], [transfer_up].
    [tp_read] is the forward pass ([transfer_columns]) or the backward pass (otherwise, it gets
    the transposed weights) with [transfer_io]. *)
Record tpar : Type := {
  tp_columns : bool; tp_reads : nat; tp_every : vec; tp_mb : bool; tp_lrs : vec; tp_scale : bool;
  tp_reset : R; tp_random : bool; tp_hidden : bool; tp_up : upar; tp_read : mat -> vec -> M vec
}.
Inductive kind : Type :=
| KVector (p : policy) (first : nat)
| KOneSided (r : refr)
| KTransfer (t : tpar).
(** State: the crossbars, [reduce_weightening_], the weights of the tile,
    [current_device_idx_], [current_update_idx_], [current_slice_indices_].  If a transfer device
    is fully hidden, the weights of the last crossbar and those of the tile are the same
    storage (rpu_transfer_device.cpp:387-394, 559-601); here the former are in the cells, the
    latter are copied from them. *)
Record comp : Type := {
  k_parts : list part; k_gam : vec; k_w : mat; k_idx : nat; k_cnt : nat; k_slices : list nat
}.
Definition with_parts (s : comp) (ps : list part) : comp :=
  {| k_parts := ps; k_gam := k_gam s; k_w := k_w s; k_idx := k_idx s; k_cnt := k_cnt s; k_slices := k_slices s |}.
Definition with_w (s : comp) (w : mat) : comp :=
  {| k_parts := k_parts s; k_gam := k_gam s; k_w := w; k_idx := k_idx s; k_cnt := k_cnt s; k_slices := k_slices s |}.
Definition with_idx (s : comp) (i c : nat) : comp :=
  {| k_parts := k_parts s; k_gam := k_gam s; k_w := k_w s; k_idx := i; k_cnt := c; k_slices := k_slices s |}.
Definition with_slices (s : comp) (l : list nat) : comp :=
  {| k_parts := k_parts s; k_gam := k_gam s; k_w := k_w s; k_idx := k_idx s; k_cnt := k_cnt s; k_slices := l |}.

(** one entry of the weighted sum: rpu_vector_device.cpp:478-481 *)
Definition entry (gam : vec) (ps : list part) (i j : nat) : R :=
  sumR (map2 (fun g p => g * at_ (vis (snd p)) i j) gam ps).
(** rpu_vector_device.cpp:530-536 [reduceToWeights]: all entries of the weights of the tile *)
Definition reduce (gam : vec) (ps : list part) (w : mat) : mat :=
  map (fun ir => map (fun jc => entry gam ps (fst ir) (fst jc)) (zipi (snd ir))) (zipi w).
Definition hidden (kd : kind) : bool := match kd with KTransfer t => tp_hidden t | _ => false end.
(** rpu_transfer_device.cpp:604-610 [reduceToWeights]; for a fully hidden device the tile and the
    last crossbar share the storage *)
Definition show (kd : kind) (s : comp) : comp :=
  if hidden kd then with_w s (vis (snd (last (k_parts s) no_part)))
  else with_w s (reduce (k_gam s) (k_parts s) (k_w s)).

(** ** Updates *)
(** [doSparseUpdate] with row and columns (true is down), [doDenseUpdate] with the coincidences *)
Inductive call : Type :=
| CSparse (i : nat) (js : list (nat * bool))
| CDense (c : list (list Z)).
Definition row_pulses (i : nat) (js : list (nat * bool)) : list (nat * nat * bool) := map (fun p => (i, fst p, snd p)) js.
Definition single (p : policy) : bool := match p with All => false | _ => true end.
(** rpu_vector_device.h:51 [singleDeviceUpdate] and [current_device_idx_] *)
Definition active (p : policy) (idx k : nat) : bool := (negb (single p) || (k =? idx)%nat)%bool.
(** rpu_vector_device.cpp:458-482 [doSparseUpdate], :484-497 [doDenseUpdate];
    [show_row] writes the touched entries only *)
Definition show_row (s : comp) (i : nat) (js : list nat) : comp :=
  with_w s (fold_left (fun w j => set_at w i j (entry (k_gam s) (k_parts s) i j)) js (k_w s)).
Definition send (p : policy) (s : comp) (l : list (nat * nat * bool)) : M comp :=
  ps <~ mapMM (fun kp => if active p (k_idx s) (fst kp) then part_op (OPulses l) (snd kp) else Ret (snd kp)) (zipi (k_parts s)) ;;
  Ret (with_parts s ps).
Definition vector_call (p : policy) (s : comp) (c : call) : M comp :=
  match c with
  | CSparse i js => s1 <~ send p s (row_pulses i js) ;; Ret (show_row s1 i (map fst js))
  | CDense cs => s1 <~ send p s (dense_pulses cs) ;; Ret (with_w s1 (reduce (k_gam s1) (k_parts s1) (k_w s1)))
  end.
(** rpu_onesided_device.cpp:230-273 [doSparseUpdate], :272-292 [doDenseUpdate]; [g_plus_] is 1,
    [g_minus_] is 0 (:175-176, [invert] is only called by tests).  Down pulses go up on the second
    conductance. *)
Definition onesided_send (s : comp) (lm lp : list (nat * nat * bool)) : M comp :=
  ps <~ mapMM (fun kp => if (fst kp =? 0)%nat then part_op (OPulses lm) (snd kp)
                         else if (fst kp =? 1)%nat then part_op (OPulses lp) (snd kp) else Ret (snd kp)) (zipi (k_parts s)) ;;
  Ret (with_parts s ps).
Definition as_up (js : list (nat * bool)) : list (nat * bool) := map (fun p => (fst p, false)) js.
Definition onesided_call (s : comp) (c : call) : M comp :=
  match c with
  | CSparse i js =>
      s1 <~ onesided_send s (row_pulses i (as_up (filter snd js))) (row_pulses i (as_up (filter (fun p => negb (snd p)) js))) ;;
      Ret (show_row s1 i (map fst js))
  | CDense cs =>
      s1 <~ onesided_send s (dense_pulses (map (map (fun c => if (0 <? c)%Z then (- c)%Z else 0%Z)) cs))
                            (dense_pulses (map (map (fun c => if (c <? 0)%Z then c else 0%Z)) cs)) ;;
      Ret (with_w s1 (reduce (k_gam s1) (k_parts s1) (k_w s1)))
  end.
(** rpu_transfer_device.cpp:521-536: only the first crossbar, nothing is shown yet *)
Definition transfer_call (s : comp) (c : call) : M comp :=
  match c with
  | CSparse i js => send SingleFixed (with_idx s 0 (k_cnt s)) (row_pulses i js)
  | CDense cs => send SingleFixed (with_idx s 0 (k_cnt s)) (dense_pulses cs)
  end.

(** *** Refresh of a one sided device *)
Definition unit_vec (n i : nat) : vec := map (fun j => if (j =? i)%nat then 1 else 0) (seq 0 n).
(** rpu_pulsed_device.cpp:498-515 [resetAtIndices], one cross point *)
Definition reset_index (mt : meta) (c : cell) : M cell :=
  d <~ (if Rltb 0 (m_rstd mt) then Gauss (fun g => Ret (m_rstd mt * g)) else Ret 0) ;;
  Ret (set_wp c (bnd (c_x c) (x_rbias (c_x c) + d)) (c_p c)).
Definition reset_indices (j : nat) (hits : list nat) (s : part) : M part :=
  if persist (fst s) then Throw RuntimeError
  else
    cs <~ foldMM (fun cs i => upd_nth i (upd_nth j (reset_index (fst s))) cs) hits (d_cells (snd s)) ;;
    Ret (fst s, with_cells (snd s) cs).
(** rpu_onesided_device.cpp:298-302 [refreshCriterion] *)
Definition refresh_crit (r : refr) (wp wm : R) : bool :=
  if Rltb wm wp then (Rltb (rf_upper r) (wp / rf_wmaxp r) && Rltb (rf_lower r) (wm / rf_wmaxm r))%bool
  else (Rltb (rf_lower r) (wp / rf_wmaxp r) && Rltb (rf_upper r) (wm / rf_wmaxm r))%bool.
(** rpu_onesided_device.cpp:341-395: one column; the result says whether something was written.
    The granularity is that of a constant step device, as in [update_vector]. *)
Definition refresh_col (r : refr) (st : part * part * bool) (j : nat) : M (part * part * bool) :=
  let '(m0, p0, done) := st in
  let x_size := length (nth 0 (d_cells (snd p0)) []) in
  let d_size := length (d_cells (snd p0)) in
  let x := unit_vec x_size j in
  rp <~ rf_read r (vis (snd p0)) x ;;
  rm <~ rf_read r (vis (snd m0)) x ;;
  let crit i := refresh_crit r (nth i rp 0) (nth i rm 0) in
  let hits := filter crit (seq 0 d_size) in
  let pv := map (fun i => if (crit i && Rltb (nth i rm 0) (nth i rp 0))%bool then nth i rp 0 - nth i rm 0 else 0) (seq 0 d_size) in
  let mv := map (fun i => if (crit i && negb (Rltb (nth i rm 0) (nth i rp 0)))%bool then nth i rm 0 - nth i rp 0 else 0) (seq 0 d_size) in
  let anyp := existsb (fun i => Rltb (nth i rm 0) (nth i rp 0)) hits in
  let anym := existsb (fun i => negb (Rltb (nth i rm 0) (nth i rp 0))) hits in
  p1 <~ reset_indices j hits p0 ;;
  m1 <~ reset_indices j hits m0 ;;
  p2 <~ (if anyp then d <~ update_vector (rf_up r) (fst p1) (-1) x pv (snd p1) ;; Ret (fst p1, d) else Ret p1) ;;
  m2 <~ (if anym then d <~ update_vector (rf_up r) (fst m1) (-1) x mv (snd m1) ;; Ret (fst m1, d) else Ret m1) ;;
  Ret (m2, p2, (done || anyp || anym)%bool).
(** rpu_onesided_device.cpp:304-387 [refreshWeights], :206-228 [finishUpdateCycle] *)
Definition onesided_finish (r : refr) (mb : nat) (s : comp) : M comp :=
  let s1 := with_idx s (k_idx s) (S (k_cnt s)) in
  let every := if rf_mb r then (rf_every r * mb)%nat else rf_every r in
  if (Nat.ltb 0 (rf_every r) && (k_cnt s1 mod every =? 0)%nat)%bool then
    match k_parts s1 with
    | [m; p] =>
        st <~ foldMM (refresh_col r) (seq 0 (length (nth 0 (d_cells (snd p)) []))) (m, p, false) ;;
        let '(m', p', done) := st in
        let s2 := with_parts s1 [m'; p'] in
        Ret (if done then with_w s2 (reduce (k_gam s2) (k_parts s2) (k_w s2)) else s2)
    | _ => Throw RuntimeError
    end
  else Ret s1.

(** *** Transfer *)
Definition ceilf : R -> Z := ceilZ.
(** C [roundf]: half away from zero *)
Definition roundf (x : R) : Z := if Rleb 0 x then floorZ (x + 1/2) else (- floorZ (- x + 1/2))%Z.
(** rpu_transfer_device.cpp:396-405 [getTransferEvery] *)
Definition transfer_every (t : tpar) (from mb : nat) : nat :=
  Z.to_nat (if tp_mb t then ceilf (nth from (tp_every t) 0 * INR mb) else roundf (nth from (tp_every t) 0)).
(** rpu_transfer_device.cpp:223-233 [getTransferLR] *)
Definition transfer_lr (t : tpar) (from : nat) (lr : R) : R := nth from (tp_lrs t) 0 * (if tp_scale t then lr else 1).
Definition transposed (m : mat) : mat := map (fun j => map (fun row => nth j row 0) m) (seq 0 (length (nth 0 m []))).
Definition in_size (t : tpar) (s : comp) : nat := if tp_columns t then length (nth 0 (k_w s) []) else length (k_w s).
Definition upd_part (k : nat) (f : part -> M part) (s : comp) : M comp := ps <~ upd_nth k f (k_parts s) ;; Ret (with_parts s ps).
(** rpu_transfer_device.cpp:407-415 [readVector] with factor -1 *)
Definition read_slice (t : tpar) (from : nat) (v : vec) (s : comp) : M vec :=
  let w := vis (snd (nth from (k_parts s) no_part)) in
  out <~ tp_read t (if tp_columns t then w else transposed w) v ;; Ret (map Ropp out).
(** rpu_transfer_device.cpp:417-431 [writeVector] *)
Definition write_slice (t : tpar) (to : nat) (lr : R) (v out : vec) (s : comp) : M comp :=
  upd_part to (fun p => d <~ (if tp_columns t then update_vector (tp_up t) (fst p) lr v out (snd p)
                              else update_vector (tp_up t) (fst p) lr out v (snd p)) ;; Ret (fst p, d)) s.
(** rpu_transfer_device.cpp:433-475 [readAndUpdate]; the transfer vectors are the unit vectors
    (:306-326) *)
Definition read_update (t : tpar) (to from : nat) (lr : R) (i0 n : nat) (s : comp) : M comp :=
  if (Reqb lr 0 || (to =? from)%nat)%bool then Ret s
  else foldMM (fun s i =>
    let v := unit_vec (in_size t s) (i0 + i) in
    out <~ read_slice t from v s ;;
    u <~ unif ;;
    s1 <~ (if (Rltb u (tp_reset t) && tp_columns t)%bool then upd_part from (part_op (OReset (Z.of_nat i0) (Z.of_nat n) 1)) s else Ret s) ;;
    write_slice t to lr v out s1) (seq 0 n) s.
(** rpu_transfer_device.cpp:477-516 [transfer] *)
Definition transfer (t : tpar) (to from : nat) (cur_lr : R) (s : comp) : M comp :=
  let ins := in_size t s in
  i0 <~ (if tp_random t then u <~ unif ;; Ret (Z.to_nat (Z.max (Z.min (floorZ (u * INR ins)) (Z.of_nat ins - 1)) 0)) else Ret (nth from (k_slices s) 0%nat)) ;;
  let lr := transfer_lr t from cur_lr in
  let rest := (ins - i0)%nat in
  let n := Nat.min (tp_reads t) ins in
  s1 <~ (if (rest <? n)%nat then
           a <~ read_update t to from lr i0 rest s ;; read_update t to from lr 0 (n - rest) a
         else read_update t to from lr i0 n s) ;;
  Ret (with_slices s1 (set_nth from ((i0 + n) mod ins)%nat (k_slices s1))).
(** rpu_transfer_device.cpp:538-557 [finishUpdateCycle] *)
Definition transfer_finish (t : tpar) (lr : R) (mb : nat) (s : comp) : M comp :=
  let n := length (k_parts s) in
  s1 <~ foldMM (fun s j =>
      let every := transfer_every t j mb in
      if (Nat.ltb 0 every && (k_cnt s mod every =? 0)%nat)%bool then transfer t (Nat.min (S j) (n - 1)) j lr s else Ret s)
    (seq 0 n) (with_idx s 0 (S (k_cnt s))) ;;
  Ret (show (KTransfer t) s1).

(** *** A whole update of the tile with one vector pair *)
(** rpu_vector_device.cpp:418-456 [initUpdateCycle]: the policy; the index is not clamped, an
    index that is too large is undefined behaviour, here an exception *)
Definition choose (p : policy) (s : comp) : M comp :=
  match p with
  | SingleRandom => u <~ unif ;; let i := Z.to_nat (floorZ (u * INR (length (k_parts s)))) in
                    if (i <? length (k_parts s))%nat then Ret (with_idx s i (k_cnt s)) else Throw IndexError
  | SingleSequential => Ret (with_idx s (S (k_idx s) mod length (k_parts s)) (k_cnt s))
  | _ => Ret s
  end.
Definition update (kd : kind) (cs : list call) (lr : R) (mb : nat) (s : comp) : M comp :=
  match kd with
  | KVector p _ => s1 <~ choose p s ;; s2 <~ foldMM (vector_call p) cs s1 ;; Ret (with_idx s2 (k_idx s2) (S (k_cnt s2)))
  | KOneSided r => s1 <~ foldMM onesided_call cs s ;; onesided_finish r mb s1
  | KTransfer t => s1 <~ foldMM transfer_call cs s ;; transfer_finish t lr mb s1
  end.

(** ** The other calls *)
Definition all_parts (o : op) (s : comp) : M comp := ps <~ mapMM (part_op o) (k_parts s) ;; Ret (with_parts s ps).
Definition zero_vis (d : dev) : dev := with_cells d (map (map (fun c => set_wp c 0 (c_p c))) (d_cells d)).
(** [onSetWeights]: rpu_vector_device.cpp:588-612 with [resetCounters] (:384-393);
    rpu_onesided_device.cpp:407-425; rpu_transfer_device.cpp:559-601 *)
Definition set_weights (kd : kind) (w : mat) (s : comp) : M comp :=
  match kd with
  | KVector p first =>
      let s0 := match p with SingleFixed => with_idx s (k_idx s) 0 | _ => with_idx s first 0 end in
      ps <~ mapMM (fun kp => part_op (OSet (match p with
                      | SingleFixed => if (fst kp =? k_idx s0)%nat then w else vis (snd (snd kp))
                      | _ => w end)) (snd kp)) (zipi (k_parts s0)) ;;
      Ret (show kd (with_parts s0 ps))
  | KOneSided _ =>
      ps <~ mapMM (fun kp => part_op (OSet (if (fst kp =? 0)%nat then map (map (fun v => if Rltb v 0 then - v else 0)) w
                                            else map (map (fun v => if Rltb 0 v then v else 0)) w)) (snd kp)) (zipi (k_parts s)) ;;
      Ret (show kd (with_parts (with_idx s 0 0) ps))
  | KTransfer t =>
      let n := length (k_parts s) in
      let g := nth (n - 1) (k_gam s) 0 in
      let s0 := with_slices (with_idx s (k_idx s) 0) (repeat 0%nat n) in
      if tp_hidden t then
        ps <~ mapMM (fun kp => if (fst kp =? n - 1)%nat then part_op (OSet w) (snd kp)
                               else Ret (fst (snd kp), zero_vis (snd (snd kp)))) (zipi (k_parts s)) ;;
        Ret (show kd (with_parts s0 ps))
      else if Reqb g 0 then Throw RuntimeError
      else
        ps <~ mapMM (fun kp => part_op (OSet (if (fst kp =? n - 1)%nat then map (map (fun v => v / g)) w
                                              else map (map (fun _ => 0)) w)) (snd kp)) (zipi (k_parts s)) ;;
        Ret (show kd (with_parts s0 ps))
  end.
(** [resetCols]: rpu_vector_device.cpp:570-586; rpu_transfer_device.cpp:645-651 (first crossbar
    only) *)
Definition reset_cols (kd : kind) (start n : Z) (prob : R) (s : comp) : M comp :=
  s1 <~ (match kd with
         | KTransfer _ => upd_part 0 (part_op (OReset start n prob)) s
         | _ => all_parts (OReset start n prob) s
         end) ;; Ret (show kd s1).

Inductive cop : Type :=
| CUpdate (cs : list call) (lr : R) (mb : nat)
| CDecay (alpha : R) (keep_bias : bool)
| CDiffuse
| CClip (v : R)
| CDrift (p : drift_par) (dt : R)
| CReset (start n : Z) (prob : R)
| CSet (w : mat)
| CFloat (delta : mat).
(** rpu_vector_device.cpp:525-568, rpu_transfer_device.cpp:612-643: decay, diffusion, clipping
    and drift are done on all crossbars.  [CFloat]: the update of pulse type [NoneWithDevice]
    (rpu_weight_updater.cpp:217-224) adds to the weights of the tile and clips. *)
Definition cdo (kd : kind) (s : comp) (o : cop) : M comp :=
  match o with
  | CUpdate cs lr mb => update kd cs lr mb s
  | CDecay a b => s1 <~ all_parts (ODecay a b) s ;; Ret (show kd s1)
  | CDiffuse => s1 <~ all_parts ODiffuse s ;; Ret (show kd s1)
  | CClip v => s1 <~ all_parts (OClip v) s ;; Ret (show kd s1)
  | CDrift p dt => s1 <~ all_parts (ODrift p dt) s ;; Ret (show kd s1)
  | CReset a n p => reset_cols kd a n p s
  | CSet w => set_weights kd w s
  | CFloat delta =>
      let added d := with_cells d (map2 (map2 (fun c dw => set_wp c (c_w c + dw) (c_p c))) (d_cells d) delta) in
      let s0 := if hidden kd then
                  with_parts s (map (fun kp => if (fst kp =? length (k_parts s) - 1)%nat then (fst (snd kp), added (snd (snd kp))) else snd kp) (zipi (k_parts s)))
                else with_w s (map2 (map2 Rplus) (k_w s) delta) in
      s1 <~ all_parts (OClip (-1)) s0 ;; Ret (show kd s1)
  end.

(** ** Saving and loading a tile *)
(** /repo/src/aihwkit/simulator/tiles/base.py:656-665 and :745-790 on a new tile of the same
    configuration: [set_hidden_parameters] (rpu_vector_device.cpp:286-325 [setDeviceParameter]:
    parameters and weights of the parts, which end with [onSetWeights] of the part; then
    [reduceToWeights]), [set_weights] with the saved weights of the tile,
    [_copy_weights_to_shared_tensors] (base.py:480-525: the saved weights are written into the
    memory of the tile, which the device does not notice), [load_extra]
    (rpu_vector_device.cpp:344-359, rpu_transfer_device.cpp:673-715: counters and indices).
    [k_idx] of a new tile is [first_update_idx]. *)
Definition load_part (s : part) : M part := part_op (OSet (vis (snd s))) s.
Definition put_vis (d : dev) (w : mat) : dev := with_cells d (map2 (map2 (fun c v => set_wp c v (c_p c))) (d_cells d) w).
Definition overwrite (kd : kind) (w : mat) (s : comp) : comp :=
  let n := length (k_parts s) in
  with_w (if hidden kd then with_parts s (map (fun kp => if (fst kp =? n - 1)%nat then (fst (snd kp), put_vis (snd (snd kp)) w) else snd kp) (zipi (k_parts s)))
          else s) w.
Definition first_idx (kd : kind) : nat := match kd with KVector _ f => f | _ => 0%nat end.
Definition reload (kd : kind) (saved : comp) : M comp :=
  ps <~ mapMM load_part (k_parts saved) ;;
  let s1 := show kd {| k_parts := ps; k_gam := k_gam saved; k_w := k_w saved; k_idx := first_idx kd; k_cnt := 0;
                       k_slices := repeat 0%nat (length ps) |} in
  s2 <~ set_weights kd (k_w saved) s1 ;;
  Ret (with_slices (with_idx (overwrite kd (k_w saved) s2) (k_idx saved) (k_cnt saved)) (k_slices saved)).

(** ** Parameters of a transfer device: rpu_transfer_device.cpp:112-221 [initializeWithSize] *)
Record tuser : Type := {
  tu_gamma : R; tu_gamma_vec : vec; tu_every : R; tu_every_vec : vec; tu_reads : nat; tu_columns : bool;
  tu_no_self : bool; tu_lr : R; tu_lr_vec : vec; tu_reset : R
}.
(** C [powf (x, i)] for a small integer *)
Definition gamma_default (g : R) (n : nat) : vec := map (fun k => g ^ (n - 1 - k)) (seq 0 n).
Fixpoint every_chain (n : nat) (e f : R) : vec := match n with O => [] | S n' => e :: every_chain n' (e * f) f end.
(** result: [gamma_vec], [fullyHidden()], [transfer_every_vec], [transfer_lr_vec],
    [n_reads_per_transfer] *)
Definition init_transfer (u : tuser) (n_dev x_size d_size : nat) : res (vec * bool * vec * vec * nat) :=
  let ins := if tu_columns u then x_size else d_size in
  let outs := if tu_columns u then d_size else x_size in
  if (n_dev <? 2)%nat then Raise RuntimeError
  else
    gg <- (match tu_gamma_vec u with
           | [] => Ok (gamma_default (tu_gamma u) n_dev, tu_gamma u)
           | v => if negb (length v =? n_dev)%nat then Raise RuntimeError
                  else if Reqb (nth (n_dev - 1) v 0) 0 then Raise RuntimeError
                  else Ok (v, sumR (firstn (n_dev - 1) v))
           end) ;;
    let '(gv, g) := gg in
    let lrs := match tu_lr_vec u with [] => repeat (tu_lr u) n_dev | v => v end in
    if negb (length lrs =? n_dev)%nat then Raise RuntimeError
    else
      let reads := if (ins <? tu_reads u)%nat then ins else tu_reads u in
      let ev := match tu_every_vec u with
                | [] => let c := every_chain n_dev (tu_every u) (INR outs / INR reads) in
                        if tu_no_self u then set_nth (n_dev - 1) 0 c else c
                | v => v end in
      if negb (length ev =? n_dev)%nat then Raise RuntimeError
      else if (Rltb 0 (tu_reset u) && negb (tu_columns u))%bool then Raise RuntimeError
      else Ok (gv, (Reqb g 0 && Reqb (last gv 0) 1)%bool, ev, lrs, reads).
