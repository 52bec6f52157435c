(** * The transfer tile written in Python (simulator/tiles/transfer.py)

    Tensors are functions of their indices; the sizes are part of the configuration.  The two
    crossbars are arbitrary (possibly random) operations [dev], numbered by a clock; [ideal] has
    exact ones.  A one dimensional input is a batch of one row. *)
From Verif Require Import Prelude PulseModel.
Local Open Scope R_scope.

Definition fvec := nat -> R.
Definition fmat := nat -> nat -> R.
Definition sumf (n : nat) (f : nat -> R) : R := sumR (map f (seq 0 n)).
(** [abs().max().item()] of a batch of rows with [n] values *)
Definition maxf (n : nat) (xs : list fvec) : R := maxabs_mat (map (fun x => map x (seq 0 n)) xs).
Definition put {A} (f : nat -> A) (k : nat) (v : A) : nat -> A := fun j => if (j =? k)%nat then v else f j.

(** compounds.py:600-830 [ChoppedTransferCompound], [DynamicTransferCompound] ([c_tail] is its
    [tail_weightening], [c_cacc] its [experimental_correct_accumulation]): the fields that are used
    by this tile; the granularities [calc_weight_granularity()] of the two devices (transfer.py:100-105)
    and [update.desired_bl] *)
Record pcfg : Type := {
  c_x : nat; c_d : nat;
  c_every : R; c_units : bool; c_nreads : Z;
  c_auto : bool; c_amom : R; c_fast : R; c_bl : R;
  c_gran : R; c_again : R; c_correct : bool;
  c_prob : R; c_random : bool; c_cols : bool;
  c_forget : bool; c_mom : R; c_tail : option R; c_cacc : bool;
  c_step : R; c_dwA : R; c_dwC : R }.
(** transfer.py:111-112 *)
Definition t_in (c : pcfg) : nat := if c_cols c then c_x c else c_d c.
Definition t_out (c : pcfg) : nat := if c_cols c then c_d c else c_x c.
(** transfer.py:107 *)
Definition lr_w (c : pcfg) : R := c_step c * c_dwC c.

(** the operations of the two crossbars: pulsed updates (learning rate, inputs, errors), forward and
    backward read of the fast one, and [torch.rand] *)
Record dev : Type := {
  v_fast : nat -> R -> list fvec -> list fvec -> fmat -> fmat;
  v_slow : nat -> R -> list fvec -> list fvec -> fmat -> fmat;
  v_fwd : nat -> fvec -> fmat -> fvec;
  v_bwd : nat -> fvec -> fmat -> fvec;
  v_coin : nat -> R }.
(** one read of the fast crossbar, for the record: which slice, the factor and the sign applied, the
    reference subtracted, what was read, the steps sent to the slow crossbar, and whether the
    sign was switched after it *)
Record rd : Type := { r_k : nat; r_lr : R; r_sign : R; r_ref : fvec; r_val : fvec; r_steps : nat -> Z; r_sw : bool }.
(** the tile: fast and slow weights, [hidden_weight], [past_mean_weight], [reference_weight],
    [chopper], the counters, [m_x], [m_d], [learning_rate]; the clock and the record of the reads
    (latest first) are not in the program *)
Record pst : Type := {
  s_A : fmat; s_W : fmat; s_H : fmat; s_P : fmat; s_F : fmat; s_c : fvec;
  s_cnt : nat; s_idx : nat; s_chop : nat; s_mx : R; s_md : R; s_lr : R;
  s_clk : nat; s_log : list rd }.
(** transfer.py:60-128 [__init__] (the weights of the crossbars are zero at the beginning) *)
Definition p_init : pst :=
  {| s_A := fun _ _ => 0; s_W := fun _ _ => 0; s_H := fun _ _ => 0; s_P := fun _ _ => 0; s_F := fun _ _ => 0; s_c := fun _ => 1;
     s_cnt := 0; s_idx := 0; s_chop := 0; s_mx := 0; s_md := 0; s_lr := 1 / 10; s_clk := 0; s_log := [] |}.

(** transfer.py:182-189 *)
Definition t_every (c : pcfg) (mb : nat) : nat :=
  Z.to_nat (ceilZ (if c_units c then INR mb * c_every c else c_every c)).
(** transfer.py:199-205: one of the running means *)
Definition ema (c : pcfg) (mb : nat) (m v : R) : R :=
  let tau := (1 - c_amom c) / INR mb in (1 - tau) * m + tau * v.
(** transfer.py:127-128, 197-211 *)
Definition fast_rate (c : pcfg) (mx md : R) : R :=
  if c_auto c then
    let a := c_fast c * (c_bl c * c_dwA c) in
    if (Rltb 0 mx && Rltb 0 md)%bool then a / (mx * md) else a
  else c_fast c.
(** transfer.py:232-240: the granularity of the buffer *)
Definition buf_gran (c : pcfg) (te : nat) : R :=
  let g := if Rltb 0 (c_gran c) then c_gran c else 1 in
  let g := if Rltb 0 (c_again c) then g * (c_dwA c * c_again c / INR (t_in c * te)) else g * c_dwA c in
  if c_correct c then g * (c_dwC c / c_dwA c) else g.
(** transfer.py:239-243 [lr_h]; Python raises on a division by zero *)
Definition read_rate (c : pcfg) (te : nat) (lr lra : R) : res R :=
  let g := buf_gran c te in
  if (Rltb 0 (c_again c) && (t_in c * te =? 0)%nat)%bool then Raise ZeroDivisionError else
  if (c_correct c && Reqb (c_dwA c) 0)%bool then Raise ZeroDivisionError else
  if Reqb g 0 then Raise ZeroDivisionError else
  if c_correct c then (if Reqb lra 0 then Raise ZeroDivisionError else Ok (lr / lra / g)) else Ok (lr / g).
(** transfer.py:245 *)
Definition c_period (c : pcfg) : nat := if Rltb 0 (c_prob c) then Z.to_nat (rhe (1 / c_prob c)) else 1%nat.
(** transfer.py:247-249: row [k] of [eye] *)
Definition unitf (k : nat) : fvec := fun j => if (j =? k)%nat then 1 else 0.

(** transfer.py:231-316: one transfer.  [te] is [transfer_every], [lra] the rate of the fast
    crossbar.  (The period of the chopper is at least one if [in_chop_prob] is a probability;
    otherwise the program raises, the model does not.)  [chopper[k]] raises if there is no such
    entry *)
Definition transfer (c : pcfg) (v : dev) (te : nat) (lra : R) (s : pst) : pst * option exn :=
  match read_rate c te (s_lr s) lra with
  | Raise e => (s, Some e)
  | Ok lrh =>
    let k := ((s_idx s + 1) mod t_in c)%nat in
    let omega := if c_cols c then v_fwd v (s_clk s) (unitf k) (s_A s) else v_bwd v (s_clk s) (unitf k) (s_A s) in
    let s1 := {| s_A := s_A s; s_W := s_W s; s_H := s_H s; s_P := s_P s; s_F := s_F s; s_c := s_c s;
                 s_cnt := s_cnt s; s_idx := k; s_chop := s_chop s; s_mx := s_mx s; s_md := s_md s; s_lr := s_lr s;
                 s_clk := S (s_clk s); s_log := s_log s |} in
    if (c_x c <=? k)%nat then (s1, Some IndexError) else
    let sg := s_c s k in
    let ref := match c_tail c with Some _ => s_F s k | None => fun _ => 0 end in
    let h := fun o => s_H s k o + lrh * sg * (omega o - ref o) in
    let past := match c_tail c with
                | Some tail => let b := Rmin (tail / INR (c_period c)) 1 in put (s_P s) k (fun o => (1 - b) * s_P s k o + b * omega o)
                | None => s_P s end in
    let steps := fun o => truncZ (h o) in
    let h' := if c_forget c then fun o => if (steps o =? 0)%Z then h o else c_mom c
              else fun o => h o - IZR (steps o) * (1 - c_mom c) in
    let cc := if (negb (Reqb (c_prob c) 0) && negb (c_random c) && (k =? 0)%nat)%bool then ((s_chop s + 1) mod c_period c)%nat else s_chop s in
    let sw := if Reqb (c_prob c) 0 then false
              else if c_random c then Rltb (v_coin v (S (s_clk s))) (c_prob c) else (cc =? 0)%nat in
    let wr := fun o => - IZR (steps o) in
    let w' := if existsb (fun o => negb (steps o =? 0)%Z) (seq 0 (t_out c))
              then (if c_cols c then v_slow v (S (S (s_clk s))) (lr_w c) [unitf k] [wr] (s_W s)
                    else v_slow v (S (S (s_clk s))) (lr_w c) [wr] [unitf k] (s_W s))
              else s_W s in
    ({| s_A := s_A s; s_W := w'; s_H := put (s_H s) k h'; s_P := past;
        s_F := (if (sw && match c_tail c with Some _ => true | None => false end)%bool then put (s_F s) k (past k) else s_F s);
        s_c := (if sw then put (s_c s) k (- sg) else s_c s);
        s_cnt := s_cnt s; s_idx := k; s_chop := cc; s_mx := s_mx s; s_md := s_md s; s_lr := s_lr s;
        s_clk := S (S (S (s_clk s)));
        s_log := {| r_k := k; r_lr := lrh; r_sign := sg; r_ref := ref; r_val := omega; r_steps := steps; r_sw := sw |} :: s_log s |}, None)
  end.

(** what a call leaves: the tile, the tensor of the inputs of the caller, and an error *)
Record out : Type := { o_s : pst; o_x : list fvec; o_e : option exn }.
(** transfer.py:213-220: the gradient is written to the fast crossbar ([x_input *= self.chopper] is
    in place) *)
Definition accumulate (c : pcfg) (v : dev) (mx md lra : R) (xs ds : list fvec) (s : pst) : pst :=
  {| s_A := v_fast v (s_clk s) lra xs ds (s_A s); s_W := s_W s; s_H := s_H s; s_P := s_P s; s_F := s_F s; s_c := s_c s;
     s_cnt := (s_cnt s + length xs)%nat; s_idx := s_idx s; s_chop := s_chop s; s_mx := mx; s_md := md; s_lr := s_lr s;
     s_clk := S (s_clk s); s_log := s_log s |}.
Definition chop (s : pst) (xs : list fvec) : list fvec := map (fun x j => x j * s_c s j) xs.
(** transfer.py:159-316 [update] *)
Definition update (c : pcfg) (v : dev) (s : pst) (xs ds : list fvec) : out :=
  if negb (c_nreads c =? 1)%Z then {| o_s := s; o_x := xs; o_e := Some ConfigError |} else
  if Rltb (c_every c) 0 then {| o_s := s; o_x := xs; o_e := Some ConfigError |} else
  if (match c_tail c with Some _ => c_cacc c | None => false end) then {| o_s := s; o_x := xs; o_e := Some ConfigError |} else
  let mb := length xs in
  let te := t_every c mb in
  let mx := if c_auto c then ema c mb (s_mx s) (maxf (c_x c) xs) else s_mx s in
  let md := if c_auto c then ema c mb (s_md s) (maxf (c_d c) ds) else s_md s in
  let lra := fast_rate c mx md in
  let xs' := chop s xs in
  let s1 := accumulate c v mx md lra xs' ds s in
  if (te =? 0)%nat then {| o_s := s1; o_x := xs'; o_e := Some ZeroDivisionError |} else
  let rest := ((s_cnt s1 - mb) mod te + mb)%nat in
  if (rest <? te)%nat then {| o_s := s1; o_x := xs'; o_e := None |} else
  if (2 * te <=? rest)%nat then {| o_s := s1; o_x := xs'; o_e := Some ConfigError |} else
  let '(s2, e) := transfer c v te lra s1 in {| o_s := s2; o_x := xs'; o_e := e |}.

(** transfer.py:416-426 [set_learning_rate] *)
Definition set_lr (lr : option R) (s : pst) : pst :=
  match lr with
  | None => s
  | Some l => {| s_A := s_A s; s_W := s_W s; s_H := s_H s; s_P := s_P s; s_F := s_F s; s_c := s_c s;
                 s_cnt := s_cnt s; s_idx := s_idx s; s_chop := s_chop s; s_mx := s_mx s; s_md := s_md s; s_lr := l;
                 s_clk := s_clk s; s_log := s_log s |}
  end.

(** exact crossbars: an update subtracts the learning rate times the outer products *)
Definition ideal_update (lr : R) (xs ds : list fvec) (w : fmat) : fmat :=
  fun i j => w i j - lr * sumR (map2 (fun (x d : fvec) => d i * x j) xs ds).
Definition ideal (c : pcfg) (coin : nat -> R) : dev :=
  {| v_fast := fun _ => ideal_update; v_slow := fun _ => ideal_update;
     v_fwd := fun _ x w i => sumf (c_x c) (fun j => w i j * x j);
     v_bwd := fun _ d w j => sumf (c_d c) (fun i => w i j * d i);
     v_coin := coin |}.

(** ** Hidden parameters (transfer.py:344-406)

    The stack of matrices ([d_size] x [x_size] each): those of the two devices ([p0], [p1]), the
    weights, then the buffers whose name contains "weight" ([hidden_weight], and for AGAD
    [past_mean_weight] and [reference_weight]), transposed if columns are transferred. *)
Definition orient (c : pcfg) (m : fmat) : fmat := if c_cols c then fun i j => m j i else m.
Definition buffers (c : pcfg) (s : pst) : list fmat :=
  s_H s :: match c_tail c with Some _ => [s_P s; s_F s] | None => [] end.
Definition get_hidden (c : pcfg) (p0 p1 : list fmat) (s : pst) : list fmat :=
  p0 ++ p1 ++ [s_A s; s_W s] ++ map (orient c) (buffers c s).
(** transfer.py:387-406; [n0], [n1]: number of hidden parameters of the two devices.  The new
    parameters of the devices are returned with the tile *)
Definition set_hidden (c : pcfg) (n0 n1 : nat) (ps : list fmat) (s : pst) : list fmat * list fmat * pst :=
  let at_ k := nth k ps (fun _ _ => 0) in
  (firstn n0 ps, firstn n1 (skipn n0 ps),
   {| s_A := at_ (n0 + n1)%nat; s_W := at_ (n0 + n1 + 1)%nat; s_H := orient c (at_ (n0 + n1 + 2)%nat);
      s_P := (match c_tail c with Some _ => orient c (at_ (n0 + n1 + 3)%nat) | None => s_P s end);
      s_F := (match c_tail c with Some _ => orient c (at_ (n0 + n1 + 4)%nat) | None => s_F s end); s_c := s_c s;
      s_cnt := s_cnt s; s_idx := s_idx s; s_chop := s_chop s; s_mx := s_mx s; s_md := s_md s; s_lr := s_lr s;
      s_clk := s_clk s; s_log := s_log s |}).
(** base.py:627-655, 703-705, transfer.py:571-573 ([ignore_analog_state=True]) and torch's
    [state_dict]/[load_state_dict]: a state dictionary has the buffers of the module (with the
    chopper) and the states of the two crossbars; [fresh] is the tile that loads it.
    [update_counter], [transfer_idx], [chop_counter], [m_x], [m_d] and [learning_rate] are plain
    attributes and not stored (the hidden parameters of the devices are not modelled here).
    Pickling and [deepcopy] copy all attributes *)
Definition restore (fresh s : pst) : pst :=
  {| s_A := s_A s; s_W := s_W s; s_H := s_H s; s_P := s_P s; s_F := s_F s; s_c := s_c s;
     s_cnt := s_cnt fresh; s_idx := s_idx fresh; s_chop := s_chop fresh; s_mx := s_mx fresh; s_md := s_md fresh; s_lr := s_lr fresh;
     s_clk := s_clk s; s_log := s_log s |}.
