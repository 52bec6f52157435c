(** * Model of the inference life cycle: programming, drift, compensation
    Sources: /repo/src/aihwkit/simulator/tiles/inference.py 55-282,
             /repo/src/aihwkit/simulator/tiles/periphery.py 114-183, 243-304,
             /repo/src/aihwkit/inference/compensation/base.py, drift.py,
             /repo/src/aihwkit/nn/modules/base.py 316-358
    The noise model and the analog forward pass are arbitrary functions of a draw (of
    any type), so every theorem holds for all noise.  Digital scales and biases are left
    out (see PeriModel.v). *)
From Verif Require Import Prelude.

(** drift compensation classes (compensation/drift.py) *)
Inductive comp : Type := GlobalComp | GlobalExact | PerColumn.

Record lenv : Type := {
  e_P : Type;                                        (* drift noise parameters *)
  e_D : Type;                                        (* random draws *)
  e_prog : nat -> e_D -> mat -> mat * e_P;           (* noise model number n: apply_programming_noise *)
  e_drift : nat -> e_D -> mat -> e_P -> R -> mat;    (* apply_drift_noise *)
  e_read : e_D -> mat -> mat;                        (* tile.forward(eye), one row per output *)
  e_comp : option comp                               (* rpu_config.drift_compensation *)
}.

(** the attributes of the tile (inference.py:53-62, periphery.py:98) *)
Record life (E : lenv) : Type := {
  l_w : mat;                       (* weights of the simulator tile *)
  l_nm : nat;                      (* rpu_config.noise_model *)
  l_ref : option mat;              (* reference_combined_weights *)
  l_prog : option mat;             (* programmed_weights *)
  l_par : option (e_P E);          (* drift_noise_parameters *)
  l_base : option vec;             (* drift_baseline *)
  l_alpha : vec                    (* alpha *)
}.
Arguments l_w {E}. Arguments l_nm {E}. Arguments l_ref {E}. Arguments l_prog {E}.
Arguments l_par {E}. Arguments l_base {E}. Arguments l_alpha {E}.

(** inference.py:50-62 *)
Definition life_new (E : lenv) (nm : nat) (w : mat) : life E :=
  {| l_w := w; l_nm := nm; l_ref := None; l_prog := None; l_par := None; l_base := None; l_alpha := [1] |}.

(** mean over all entries, and [clamp(., min=0.0001)] *)
Definition min_read : R := 1 / 10 ^ 4.
Definition meanabs (l : vec) : R := sumR (map Rabs l) / INR (length l).
(** compensation/drift.py [readout] (24-27, 72-75) *)
Definition readout (k : comp) (out : mat) : vec :=
  match k with
  | GlobalComp | GlobalExact => [Rmax (meanabs (concat out)) min_read]
  | PerColumn => map (fun row => Rmax (meanabs row) min_read) out
  end.
(** compensation/base.py:54-61 [apply] *)
Definition ratio_vec (ref cur : vec) : vec := map2 Rdiv ref cur.

(** [tile.set_weights(w)] without scaling (periphery.py:155-177): only the reference is reset *)
Definition op_set {E} (w : mat) (s : life E) : life E :=
  {| l_w := w; l_nm := l_nm s; l_ref := None; l_prog := l_prog s; l_par := l_par s; l_base := l_base s; l_alpha := l_alpha s |}.
(** training: the simulator tile's weights change, nothing else *)
Definition op_train {E} (w : mat) (s : life E) : life E :=
  {| l_w := w; l_nm := l_nm s; l_ref := l_ref s; l_prog := l_prog s; l_par := l_par s; l_base := l_base s; l_alpha := l_alpha s |}.
(** inference.py:161-216 [program_weights] *)
Definition op_program {E} (d dr : e_D E) (from_reference : bool) (nm : option nat) (s : life E) : life E :=
  let n := match nm with Some n => n | None => l_nm s end in
  let ref := if from_reference then match l_ref s with Some r => r | None => l_w s end else l_w s in
  let '(p, par) := e_prog E n d ref in
  {| l_w := p; l_nm := n; l_ref := Some ref; l_prog := Some p; l_par := Some par;
     l_base := match e_comp E with
               | None => l_base s
               | Some GlobalExact => Some (readout GlobalExact ref)     (* drift.py:50-65 *)
               | Some k => Some (readout k (e_read E dr p))             (* base.py:25-40 *)
               end;
     l_alpha := l_alpha s |}.
(** inference.py:218-266 [drift_weights]; [d0], [dr0] are the draws if it has to program first *)
Definition op_drift {E} (d0 dr0 d dr : e_D E) (t : R) (s : life E) : res (life E) :=
  let s := match l_prog s with None => op_program d0 dr0 true None s | Some _ => s end in
  match l_prog s, l_par s with
  | Some p, Some par =>
      let w := e_drift E (l_nm s) d p par t in
      match e_comp E, l_base s with
      | None, _ => Ok {| l_w := w; l_nm := l_nm s; l_ref := l_ref s; l_prog := l_prog s; l_par := l_par s;
                         l_base := l_base s; l_alpha := l_alpha s |}
      | Some k, Some b => Ok {| l_w := w; l_nm := l_nm s; l_ref := l_ref s; l_prog := l_prog s; l_par := l_par s;
                         l_base := l_base s; l_alpha := ratio_vec b (readout k (e_read E dr w)) |}
      | Some _, None => Raise TypeError
      end
  | _, _ => Raise TypeError
  end.
(** broadcast of [alpha] ([1] or one per output), inference.py:268-282; the forward pass
    itself is exact here *)
Definition scale_out (alpha y : vec) : vec :=
  match alpha with [a] => map (fun v => v * a) y | _ => map2 Rmult y alpha end.
Definition eval_forward {E} (s : life E) (x : vec) : vec :=
  match e_comp E with None => matvec (l_w s) x | Some _ => scale_out (l_alpha s) (matvec (l_w s) x) end.
Definition train_forward {E} (s : life E) (x : vec) : vec := matvec (l_w s) x.

(** calls of the life cycle; an operation that raises leaves the state as it is *)
Inductive lop (E : lenv) : Type :=
| LSet (w : mat)
| LTrain (w : mat)
| LProgram (d dr : e_D E) (from_reference : bool) (nm : option nat)
| LDrift (d0 dr0 d dr : e_D E) (t : R).
Arguments LSet {E}. Arguments LTrain {E}. Arguments LProgram {E}. Arguments LDrift {E}.
Definition lrun {E} (s : life E) (o : lop E) : life E :=
  match o with
  | LSet w => op_set w s
  | LTrain w => op_train w s
  | LProgram d dr fr nm => op_program d dr fr nm s
  | LDrift d0 dr0 d dr t => match op_drift d0 dr0 d dr t s with Ok s' => s' | Raise _ => s end
  end.

(** nn/modules/base.py:325-329, 349-353: layers refuse programming and drift in training mode *)
Definition layer_call {A} (training : bool) (r : A) : res A := if training then Raise ModuleError else Ok r.

(** ** Programming with pulses (periphery.py:243-304), on flattened weights.
    [f] is the tile's forward pass with the unit vectors and [u] the update with the error. *)
Record ptst : Type := { q_w : vec; q_ref : option vec; q_lr : R }.
Fixpoint prog_loop (f : vec -> vec) (u : R -> vec -> vec -> vec) (lr : R) (target : vec) (tol : option R) (n : nat) (w : vec) : vec :=
  match n with
  | O => w
  | S n' =>
      let e := map2 Rminus (f w) target in
      let stop := match tol with Some t => Rltb (meanabs e / maxabs target) t | None => false end in
      if stop then w else prog_loop f u lr target tol n' (u lr w e)
  end.
(** [x_given]: [x_values] is given; [target_weights] is bound only in the first branch, and
    [target_values] only if [x_values] is not given.  A relative error with [maxabs = 0] is
    not a number, which never is below the tolerance: [maxabs target = 0] is mapped to no
    tolerance. *)
Definition pulse_program (f : vec -> vec) (u : R -> vec -> vec -> vec) (w0 : vec) (from_reference x_given : bool)
  (lr : R) (max_iter : nat) (tol : option R) (s : ptst) : res ptst :=
  let bound := negb from_reference || match q_ref s with None => true | Some _ => false end in
  let ref := if bound then Some (q_w s) else q_ref s in
  if x_given then Raise UnboundLocalError
  else if bound then
    let target := q_w s in
    let tol := if Reqb (maxabs target) 0 then None else tol in
    Ok {| q_w := prog_loop f u lr target tol max_iter w0; q_ref := ref; q_lr := q_lr s |}
  else Raise UnboundLocalError.
(** the ideal tile: the forward pass reads the weights, the update is SGD *)
Definition ideal_read (w : vec) : vec := w.
Definition ideal_update (lr : R) (w e : vec) : vec := map2 (fun a b => a - lr * b) w e.
