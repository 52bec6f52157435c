(** * Specification vocabulary for the periphery properties (no proofs) *)
From Verif Require Import Prelude PeriModel.

(** The calls a user (or the optimizer) may make on a tile. *)
Inductive pop : Type :=
| OpSet (w : mat) (b : option vec) (apply : bool) (omega : option R)  (* tile.set_weights *)
| OpRemap (omega : option R)                                          (* tile.remap_weights *)
| OpScales (v : vec)                                                  (* tile.set_scales(tensor) *)
| OpUpdate (x d : vec)                                                (* tile.update *)
| OpLR (lr : R)                                                       (* tile.set_learning_rate *)
| OpIR (v : R)                                                        (* tile.set_input_range *)
| OpLearned (v : vec)      (* an optimizer step writes the out_scaling_alpha parameter *)
| OpDigitalBias (v : vec). (* an optimizer step writes the digital bias parameter *)

(** One call; a call that raises leaves the tile as it was. *)
Definition run (c : pcfg) (t : ptile) (o : pop) : ptile :=
  let keep (r : res ptile) := match r with Ok t' => t' | Raise _ => t end in
  match o with
  | OpSet w b a om => keep (set_weights c w b a om t)
  | OpRemap om => keep (remap_weights c om t)
  | OpScales v => set_scales c (STensor v) t
  | OpUpdate x d => update c t x d
  | OpLR lr => set_learning_rate (Some lr) t
  | OpIR v => keep (set_input_range v t)
  | OpLearned v => match t_los t with
                   | Some l => if Nat.eqb (length l) (length v) then with_los t (Some v) else t
                   | None => t
                   end
  | OpDigitalBias v => if digital_bias c then with_bias t (Some v) else t
  end.

(** The shape a user must respect for tensors; scales are positive vectors of
    length one or [out_size]. *)
Definition bias_arg (c : pcfg) (b : option vec) : Prop :=
  match b with
  | Some v => c_bias c = true /\ length v = c_out c
  | None => analog_bias c = false
  end.
Definition valid (c : pcfg) (o : pop) : Prop :=
  match o with
  | OpSet w b _ _ => shape (c_out c) (c_in c) w /\ bias_arg c b
  | OpScales v => (length v = 1%nat \/ length v = c_out c) /\ v <> [] /\ Forall (fun a => 0 < a) v
  | OpUpdate x d => length x = c_in c /\ length d = c_out c
  | OpDigitalBias v => length v = c_out c
  | _ => True
  end.

(** every tile state some history of valid calls leads to *)
Definition reachable (c : pcfg) (t : ptile) : Prop :=
  exists w0 ir lr ops,
    (0 < c_out c)%nat
    /\ shape (c_out c) (if analog_bias c then S (c_in c) else c_in c) w0
    /\ match ir with Some r => 0 < r | None => True end
    /\ Forall (valid c) ops
    /\ t = fold_left (run c) ops (ptile_new c w0 ir lr).

(** logical weights and bias, as the user reads them *)
Definition logical (c : pcfg) (t : ptile) : mat * option vec := get_weights c true t.

(** y = W x + b *)
Definition affine_map (w : mat) (b : option vec) (x : vec) : vec :=
  match b with Some v => vadd (matvec w x) v | None => matvec w x end.

(** one plain SGD step  W_ij <- W_ij - lr d_i x_j *)
Definition sgd (lr : R) (w : mat) (x d : vec) : mat :=
  map2 (fun di row => map2 (fun wij xj => wij - lr * di * xj) row x) d w.
(** bias SGD step  b_i <- b_i - lr d_i *)
Definition sgd_bias (lr : R) (b d : vec) : vec := map2 (fun bi di => bi - lr * di) b d.

(** the matrix that goes on the crossbar before scaling: the weights, with the
    bias as an extra last column when it is kept in analog *)
Definition crossbar_target (c : pcfg) (w : mat) (b : option vec) : mat :=
  match b with
  | Some v => if analog_bias c then map2 (fun row x => row ++ [x]) w v else w
  | None => w
  end.
