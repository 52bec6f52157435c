(** * Compound devices: vocabulary of the theorems *)
From Verif Require Import Prelude Rand DevModel DevSpec PulseModel PulseSpec CompModel.

(** number of columns of every row *)
Definition dims {A} (m : list (list A)) : list nat := map (@length A) m.
(** the weight the tile works with, and the weight of crossbar number [k] *)
Definition tile_weight (s : comp) (i j : nat) : R := at_ (k_w s) i j.
Definition part_weight (s : comp) (k i j : nat) : R := at_ (vis (snd (nth k (k_parts s) no_part))) i j.
(** the crossbars and the weightening of a compound device fit together *)
Definition well_formed (kd : kind) (s : comp) : Prop :=
  k_parts s <> [] /\ length (k_gam s) = length (k_parts s) /\
  Forall (fun p => dims (d_cells (snd p)) = dims (k_w s)) (k_parts s) /\
  match kd with KOneSided _ => k_gam s = [-1; 1] | _ => True end.
(** the documented meaning of the weights of the tile: sum over [k] of [gamma_k * weight_k] *)
Definition weighted_sum (s : comp) (i j : nat) : R :=
  sumR (map (fun k => nth k (k_gam s) 0 * part_weight s k i j) (seq 0 (length (k_parts s)))).
Definition shows_sum (s : comp) : Prop := forall i j, tile_weight s i j = weighted_sum s i j.
(** matrices given by the user have the size of the tile *)
Definition cop_fits (ds : list nat) (o : cop) : Prop :=
  match o with CSet w => dims w = ds | CFloat w => dims w = ds | _ => True end.
Definition chistory (kd : kind) (s : comp) (os : list cop) (s' : comp) : Prop := yields (foldMM (cdo kd) os s) s'.
(** no write noise is added when weights are set *)
Definition quiet (mt : meta) : Prop := m_wn mt <= 0 \/ m_wn_on_set mt = false.
(** [v] is between the bounds of crossbar [k] at [i], [j] *)
Definition admits (s : comp) (k i j : nat) (v : R) : Prop :=
  forall c, cell_at (d_cells (snd (nth k (k_parts s) no_part))) i j = Some c -> within (c_x c) v.
Definition all_quiet (s : comp) : Prop := Forall (fun p => quiet (fst p)) (k_parts s).
(** the pulses of a call, and of all calls of an update at one cross point *)
Definition call_pulses (c : call) : pulse_list := match c with CSparse i js => row_pulses i js | CDense cs => dense_pulses cs end.
Definition sent (cs : list call) (i j : nat) : list bool := flat_map (fun c => pulses_at (call_pulses c) i j) cs.
(** a crossbar gets the pulses of the calls *)
Definition gets (cs : list call) (p p' : part) : Prop := yields (foldMM (fun p c => part_op (OPulses (call_pulses c)) p) cs p) p'.
Definition part_at (s : comp) (k : nat) : part := nth k (k_parts s) no_part.
Definition is_update (o : cop) : Prop := match o with CUpdate _ _ _ => True | _ => False end.
(** reading without noise: the matrix vector product *)
Definition ideal_read (read : mat -> vec -> M vec) : Prop := forall w x, read w x = Ret (map (fun row => sumR (map2 Rmult row x)) w).
(** documented refresh condition: the larger conductance is above the upper, the smaller one above
    the lower threshold (in units of the maximal conductances) *)
Definition needs_refresh (r : refr) (wp wm : R) : Prop :=
  (wm < wp /\ rf_upper r < wp / rf_wmaxp r /\ rf_lower r < wm / rf_wmaxm r) \/
  (wp <= wm /\ rf_lower r < wp / rf_wmaxp r /\ rf_upper r < wm / rf_wmaxm r).
(** [c0] is [c] after a reset of its conductance *)
Definition was_reset (mt : meta) (c c0 : cell) : Prop :=
  exists d, (m_rstd mt <= 0 -> d = 0) /\ c0 = set_wp c (bnd (c_x c) (x_rbias (c_x c) + d)) (c_p c).
